(* C177-C179: averages of rt_structure.calculate over its random numbers, planar structures. *)
From Coq Require Import Reals List Bool ZArith Lia Lra.
From Verif Require Import Base Lib Model_Angles Model_Optics Model_OpticsC Model_RayIface Model_RayStack Model_Surface Model_RTStruct Model_Trace
  Model_StackRay Model_StackCalc
  Spec_Optics Spec_OpticsC Spec_RayIface Spec_RayStack Spec_Surface Spec_RTStruct Spec_Trace Spec_StackRay Spec_StackCalc Spec_Mean Spec_Slab
  Proof_OpticsC2 Proof_Mean Proof_MeanRay Proof_MeanCalc Proof_MeanSlab Proof_MeanExist Prop_OpticsC Prop_StackCalc.
Import ListNotations.
Open Scope R_scope.

(* ---------- C177 ---------- *)

(* layers that absorb at least the part 1 - exp(-c) of light crossing them straight; n numbers are enough for each ray, nb are drawn.
   The average of R, T or the absorption in a layer or at a surface is what the balance of power at the surfaces (Fresnel and
   Snell, or the lookup table) and in the layers (Beer-Lambert) gives, less at most the threshold below which rays are given up *)
Theorem C177_mean : forall S textures materials widths inc trn surfs tables o w c n fuel nb q X,
  let mats := inc :: materials ++ [trn] in
  built_structure S textures materials widths inc trn surfs -> sound_options mats widths tables surfs o w ->
  flat_structure S textures widths mats tables o w ->
  0 < c -> (forall i, (i < length widths)%nat -> c <= 4 * PI * im (nth i materials inc (c_wl o)) / c_wl o * nth i widths 0) ->
  (1 <= n)%nat -> - ln (c_thresh o) < INR n * c -> (n <= nb)%nat ->
  within widths q -> balance mats widths tables o q X ->
  exists m, mean (n_reps_of (c_nrays o) (c_nx o) (c_ny o) * c_nx o * c_ny o * nb)
      (fun u => given q (calculate n (3 + fuel) surfs mats widths tables o (with_numbers w nb u))) m /\
    X (start_mat o) (start_dir o) - c_thresh o <= m <= X (start_mat o) (start_dir o).
Proof.
  intros S textures materials widths inc trn surfs tables o w c n fuel nb q X mats HB HO HF Hc HA Hn HT Hnb Hq HX.
  exact (calc_mean S textures materials widths inc trn surfs tables o w c n fuel nb HB HO HF Hc HA Hn HT Hnb q X Hq HX).
Qed.
Print Assumptions C177_mean.

(* the balance of power has a solution, only one, and the solutions for R, T, the layers and the surfaces add up to 1 *)
Theorem C177_balance : forall S textures materials widths inc trn surfs tables o w c,
  let mats := inc :: materials ++ [trn] in
  built_structure S textures materials widths inc trn surfs -> sound_options mats widths tables surfs o w ->
  flat_structure S textures widths mats tables o w ->
  0 < c -> (forall i, (i < length widths)%nat -> c <= 4 * PI * im (nth i materials inc (c_wl o)) / c_wl o * nth i widths 0) ->
  exists X, (forall q, balance mats widths tables o q (X q)) /\
    (forall q Y, balance mats widths tables o q Y -> Y (start_mat o) (start_dir o) = X q (start_mat o) (start_dir o)) /\
    X Reflected (start_mat o) (start_dir o) + X Transmitted (start_mat o) (start_dir o) +
      rsum (map (fun i => X (AbsorbedIn i) (start_mat o) (start_dir o)) (seq 0 (length widths))) +
      rsum (map (fun i => X (AbsorbedAt i) (start_mat o) (start_dir o)) (seq 0 (Datatypes.S (length widths)))) = 1.
Proof.
  intros S textures materials widths inc trn surfs tables o w c mats HB HO HF Hc HA.
  pose proof (parts_ok S textures materials widths inc trn surfs tables o w HB HO HF) as Hparts.
  pose proof (next_ok S textures materials widths inc trn surfs tables o w HB HO HF) as Hnext.
  pose proof (loss_least S textures materials widths inc trn surfs tables o w c HB HO HF Hc HA) as Hloss.
  pose proof (start_heads S textures materials widths inc trn surfs tables o w HO HF) as Hhd.
  pose proof (lit_first S textures materials widths inc trn surfs tables o w HB HO HF) as Hlit.
  fold mats in Hparts, Hnext, Hloss, Hlit.
  exists (fun q => limit mats widths tables o c Hparts Hnext Hc Hloss q).
  split; [intros q; apply balance_exists|]. split.
  - intros q Y HY. apply (balance_unique mats widths tables o c Hparts Hnext Hc Hloss q); auto. apply balance_exists.
  - apply (balance_conserves mats widths tables o c Hparts Hnext Hc Hloss (fun q => limit mats widths tables o c Hparts Hnext Hc Hloss q)); auto.
    intros q _. apply balance_exists.
Qed.
Print Assumptions C177_balance.

(* calculate does report a value whatever the numbers (C175), and an average is one number *)
Theorem C177_reports : forall S textures materials widths inc trn surfs tables o w c n fuel nb u,
  let mats := inc :: materials ++ [trn] in
  built_structure S textures materials widths inc trn surfs -> sound_options mats widths tables surfs o w ->
  flat_structure S textures widths mats tables o w ->
  0 < c -> (forall i, (i < length widths)%nat -> c <= 4 * PI * im (nth i materials inc (c_wl o)) / c_wl o * nth i widths 0) ->
  (1 <= n)%nat -> - ln (c_thresh o) < INR n * c -> (n <= nb)%nat -> fractions u ->
  exists t rays, calculate n (3 + fuel) surfs mats widths tables o (with_numbers w nb u) = Some (Ok (t, rays)).
Proof.
  intros S textures materials widths inc trn surfs tables o w c n fuel nb u mats HB HO HF Hc HA Hn HT _ Hu.
  exact (C175_ends S textures materials widths inc trn surfs tables o (with_numbers w nb u) c n fuel HB
    (numbers_sound materials widths inc trn surfs tables o w nb HO u Hu) (numbers_flat S textures materials widths inc trn tables o w nb HF u) Hc HA Hn HT).
Qed.
Print Assumptions C177_reports.

Theorem C177_one_average : forall n f m m', mean n f m -> mean n f m' -> m = m'.
Proof. exact mean_unique. Qed.
Print Assumptions C177_one_average.

(* ---------- C178 ---------- *)

(* a single layer, light from the front: the average is the formula for a slab with all orders of internal reflection (C149);
   what the surfaces neither reflect nor let through is absorbed there *)
Theorem C178_slab : forall S textures material_ width inc trn surfs tables o w c n fuel nb q,
  let mats := [inc; material_; trn] in
  built_structure S textures [material_] [width] inc trn surfs -> sound_options mats [width] tables surfs o w ->
  flat_structure S textures [width] mats tables o w -> start_mat o = 0%Z -> start_dir o = 1%Z ->
  0 < c -> c <= 4 * PI * im (material_ (c_wl o)) / c_wl o * width ->
  (1 <= n)%nat -> - ln (c_thresh o) < INR n * c -> (n <= nb)%nat -> within [width] q ->
  let r0 := reflectance mats tables o 0 1 in let rb := reflectance mats tables o 1 (-1) in let r1 := reflectance mats tables o 1 1 in
  let t0 := passed mats tables o 0 1 in let tb := passed mats tables o 1 (-1) in let t1 := passed mats tables o 1 1 in
  let d := transmittance mats [width] o 1 in
  let formula := match q with Reflected => slab_R r0 t0 rb tb r1 d | Transmitted => slab_T t0 rb r1 t1 d
                 | AbsorbedIn _ => slab_A t0 rb r1 d
                 | AbsorbedAt i => if Nat.eqb i 0 then slab_R (1 - r0 - t0) t0 rb (1 - rb - tb) r1 d else slab_T t0 rb r1 (1 - r1 - t1) d end in
  exists m, mean (n_reps_of (c_nrays o) (c_nx o) (c_ny o) * c_nx o * c_ny o * nb)
      (fun u => given q (calculate n (3 + fuel) surfs mats [width] tables o (with_numbers w nb u))) m /\
    formula - c_thresh o <= m <= formula.
Proof.
  intros S textures material_ width inc trn surfs tables o w c n fuel nb q mats HB HO HF S0 S1 Hc HA Hn HT Hnb Hq r0 rb r1 t0 tb t1 d formula.
  assert (HA' : forall i, (i < length [width])%nat -> c <= 4 * PI * im (nth i [material_] inc (c_wl o)) / c_wl o * nth i [width] 0).
  { intros [|i] Hi; cbn [length] in Hi; [exact HA|lia]. }
  destruct (C177_balance S textures [material_] [width] inc trn surfs tables o w c HB HO HF Hc HA') as (X & BX & _).
  destruct (C177_mean S textures [material_] [width] inc trn surfs tables o w c n fuel nb q (X q) HB HO HF Hc HA' Hn HT Hnb Hq (BX q)) as (m & M & B).
  assert (E : X q 0%Z 1%Z = formula).
  { pose proof (lit_first S textures [material_] [width] inc trn surfs tables o w HB HO HF) as L. rewrite S0 in L.
    apply (slab_is mats width tables o c (parts_ok S textures [material_] [width] inc trn surfs tables o w HB HO HF)
      (next_ok S textures [material_] [width] inc trn surfs tables o w HB HO HF) Hc); [|exact L|exact Hq|exact (BX q)].
    intros L1. apply (loss_least S textures [material_] [width] inc trn surfs tables o w c HB HO HF Hc HA' 1); [cbn [length]; lia|exact L1]. }
  exists m. split; [exact M|]. rewrite S0, S1, E in B. exact B.
Qed.
Print Assumptions C178_slab.

(* ---------- C179 ---------- *)

(* R0 is, on average, exactly the reflectance of the first surface, whatever the threshold and the layers below: Fresnel's at the angle of
   incidence, or the reflection in the table of the surface *)
Theorem C179_R0 : forall S textures materials widths inc trn surfs tables o w c n fuel nb,
  let mats := inc :: materials ++ [trn] in
  built_structure S textures materials widths inc trn surfs -> sound_options mats widths tables surfs o w ->
  flat_structure S textures widths mats tables o w -> start_mat o = 0%Z -> start_dir o = 1%Z ->
  0 < c -> (forall i, (i < length widths)%nat -> c <= 4 * PI * im (nth i materials inc (c_wl o)) / c_wl o * nth i widths 0) ->
  (1 <= n)%nat -> - ln (c_thresh o) < INR n * c -> (n <= nb)%nat ->
  mean (n_reps_of (c_nrays o) (c_nx o) (c_ny o) * c_nx o * c_ny o * nb)
      (fun u => given_R0 (calculate n (3 + fuel) surfs mats widths tables o (with_numbers w nb u)))
      (match nth 0 tables None with
       | None => fresnel_Rc (inc (c_wl o)) (nth 0 (materials ++ [trn]) inc (c_wl o)) (c_theta o) (c_pol o)
       | Some ent => te_R (ent 1%Z (c_theta o)) end).
Proof.
  intros S textures materials widths inc trn surfs tables o w c n fuel nb mats HB HO HF S0 S1 Hc HA Hn HT Hnb.
  pose proof (calc_R0_mean S textures materials widths inc trn surfs tables o w c n fuel nb HB HO HF Hc HA Hn HT Hnb S0 S1) as M. fold mats in M.
  assert (SN : snell (media mats o) 0 (c_theta o) 0 = c_theta o).
  { unfold snell. pose proof (op_theta _ _ _ _ _ _ HO) as Hth. destruct (op_media _ _ _ _ _ _ HO inc (or_introl eq_refl)) as [Hi _].
    change (index_of (media mats o) 0) with (re (inc (c_wl o))). replace (re (inc (c_wl o)) * sin (c_theta o) / re (inc (c_wl o))) with (sin (c_theta o)) by (field; lra).
    apply asin_sin. lra. }
  assert (E : reflectance mats tables o 0 1 = match nth 0 tables None with
       | None => fresnel_Rc (inc (c_wl o)) (nth 0 (materials ++ [trn]) inc (c_wl o)) (c_theta o) (c_pol o)
       | Some ent => te_R (ent 1%Z (c_theta o)) end).
  { unfold reflectance. rewrite S0, SN. unfold film_ahead, films_on. cbn [Z.eqb Pos.eqb Z.to_nat].
    pose proof (op_tables _ _ _ _ _ _ HO) as LT. destruct tables as [|t tables]; [cbn [length] in LT; lia|]. cbn [map nth].
    destruct t as [ent|]; cbn [coated]; [reflexivity|]. f_equal. unfold nk_of, media, mats. cbn [Z.add Z.to_nat Pos.to_nat Pos.iter_op map nth].
    destruct materials; reflexivity. }
  rewrite E in M. exact M.
Qed.
Print Assumptions C179_R0.

(* ---------- the examples of C173-C176: averages over the number of their one ray ---------- *)

Lemma eg_absorbs : 4 <= 4 * PI * im (nth 0 eg_mats eg_inc (c_wl eg_options)) / c_wl eg_options * nth 0 eg_widths 0.
Proof.
  pose proof PI_RGT_0 as PP. cbn [eg_mats eg_widths nth eg_options eg_opts c_wl im]. replace (4 * PI * 1 / (1 / 10 ^ 6) * (1 / 10 ^ 6)) with (4 * PI) by (field; lra).
  pose proof PI2_3_2. unfold PI2 in *. lra.
Qed.
Lemma eg_all_absorb : forall i, (i < length eg_widths)%nat -> 4 <= 4 * PI * im (nth i eg_mats eg_inc (c_wl eg_options)) / c_wl eg_options * nth i eg_widths 0.
Proof. intros [|i] Hi; cbn [eg_widths length] in Hi; [exact eg_absorbs|lia]. Qed.
Lemma eg_one_ray : (n_reps_of (c_nrays eg_options) (c_nx eg_options) (c_ny eg_options) * c_nx eg_options * c_ny eg_options = 1)%nat.
Proof. cbn [eg_options eg_opts c_nx c_ny c_nrays]. unfold n_reps_of. rewrite (Zceil_unique _ 1) by (cbn [Nat.mul Nat.add INR]; lra). reflexivity. Qed.

Example C177_example : exists S surfs X, built_structure S [0; 0]%nat eg_mats eg_widths eg_inc eg_trn surfs /\
  sound_options (eg_inc :: eg_mats ++ [eg_trn]) eg_widths eg_tables surfs eg_options eg_draws /\
  flat_structure S [0; 0]%nat eg_widths (eg_inc :: eg_mats ++ [eg_trn]) eg_tables eg_options eg_draws /\
  balance (eg_inc :: eg_mats ++ [eg_trn]) eg_widths eg_tables eg_options Reflected X /\ (1 <= 1)%nat /\ - ln (c_thresh eg_options) < INR 1 * 4 /\
  4 <= 4 * PI * im (nth 0 eg_mats eg_inc (c_wl eg_options)) / c_wl eg_options * nth 0 eg_widths 0 /\
  mean 1 (fun u => given Reflected (calculate 1 3 surfs (eg_inc :: eg_mats ++ [eg_trn]) eg_widths eg_tables eg_options (with_numbers eg_draws 1 u))) (1 / 5).
Proof.
  destruct eg_structure as (S & surfs & HB & HO & HF). pose proof PI_RGT_0 as PP. pose proof ln_tenth as LT. change (1 / 10) with (c_thresh eg_options) in LT.
  set (mats := eg_inc :: eg_mats ++ [eg_trn]) in *.
  destruct (C177_balance S _ eg_mats eg_widths eg_inc eg_trn surfs _ _ _ 4 HB HO HF ltac:(lra) eg_all_absorb) as (X & BX & _).
  exists S, surfs, (X Reflected). split; [exact HB|]. split; [exact HO|]. split; [exact HF|]. split; [exact (BX Reflected)|].
  split; [lia|]. split; [exact LT|]. split; [exact eg_absorbs|].
  assert (R15 : reflectance mats eg_tables eg_options 0 1 = 1 / 5).
  { unfold reflectance. change (film_ahead _ 0 1) with (Bare PolU). unfold snell. cbn [eg_options eg_opts c_theta c_pol]. rewrite sin_0, Rmult_0_r. unfold Rdiv at 1. rewrite Rmult_0_l, asin_0.
    change (nk_of (media mats _) 0) with (creal 1). change (nk_of (media mats _) (0 + 1)) with (mkc 2 1).
    destruct (fresnel_Rc_cases (creal 1) (mkc 2 1) 0 PolU) as [_ FQ]; cbn [re creal]; try lra.
    rewrite FQ by (rewrite sin_0; cbn [re creal]; lra). unfold creal. rewrite calc_Rc_normal by lra. lra. }
  assert (M : mean 1 (val mats eg_widths eg_tables eg_options Reflected 1 0 0 1 1) (1 / 5)).
  { replace (1 / 5) with (1 / 5 * 1 + (1 - 1 / 5) * 0) by lra. apply (mean_cut 0 _ (fun _ => 1) (fun _ => 0)); [lra|apply mean_const|intros _; apply mean_const|].
    intros v u Hv Hu. cbn [val before]. rewrite R15. destruct (Rleb v (1 / 5)).
    - unfold enters. cbn [Z.eqb out_front]. ring.
    - destruct (Rleb v _); [|cbn [counts_at]; ring]. unfold enters. cbn [Z.add Z.eqb Pos.add eg_widths length Z.of_nat Pos.of_succ_nat Pos.eqb]. unfold in_layer. cbn [val]. destruct (Rltb _ _); ring. }
  apply (mean_ext 1 (fun u => val mats eg_widths eg_tables eg_options Reflected 1 0 0 1 1 u)); [|exact M].
  intros u Hu. unfold mats. change 3%nat with (3 + 0)%nat.
  rewrite (calc_val S _ eg_mats eg_widths eg_inc eg_trn surfs eg_tables eg_options eg_draws 4 1 0 1 HB HO HF ltac:(lra) eg_all_absorb (le_n 1) LT (le_n 1) Reflected u Hu I).
  rewrite eg_one_ray. cbn [seq map rsum INR Nat.mul Nat.add]. change (start_mat eg_options) with 0%Z. change (start_dir eg_options) with 1%Z. rewrite Rinv_1. change (fun j : nat => u j) with u. ring.
Qed.

(* with the lookup table of C174_coated on the first surface: it absorbs 7/10 of the light *)
Example C177_coated : exists S surfs, built_structure S [0; 0]%nat eg_mats eg_widths eg_inc eg_trn surfs /\
  sound_options (eg_inc :: eg_mats ++ [eg_trn]) eg_widths eg_coated surfs eg_options eg_draws /\
  flat_structure S [0; 0]%nat eg_widths (eg_inc :: eg_mats ++ [eg_trn]) eg_coated eg_options eg_draws /\
  mean 1 (fun u => given (AbsorbedAt 0) (calculate 1 3 surfs (eg_inc :: eg_mats ++ [eg_trn]) eg_widths eg_coated eg_options (with_numbers eg_draws 1 u))) (7 / 10).
Proof.
  destruct (eg_structure_of 1 true 0 eg_coated) as (S & surfs & HB & HO & HF); [lra|auto|]. pose proof ln_tenth as LT. change (1 / 10) with (c_thresh eg_options) in LT.
  fold eg_options in HO, HF. set (mats := eg_inc :: eg_mats ++ [eg_trn]) in *.
  exists S, surfs. split; [exact HB|]. split; [exact HO|]. split; [exact HF|].
  assert (M : mean 1 (val mats eg_widths eg_coated eg_options (AbsorbedAt 0) 1 0 0 1 1) (7 / 10)).
  { replace (7 / 10) with (1 / 10 * 0 + 2 / 10 * 0 + (1 - 1 / 10 - 2 / 10) * 1) by lra.
    apply (mean_cut3 0 _ (fun _ => 0) (fun _ => 0) (fun _ => 1)); [lra|lra|lra|apply mean_const|intros _; apply mean_const|apply mean_const|].
    intros v u Hv Hu. cbn [val before]. change (reflectance mats eg_coated eg_options 0 1) with (1 / 10). change (passed mats eg_coated eg_options 0 1) with (2 / 10).
    destruct (Rleb v (1 / 10)); [unfold enters; cbn [Z.eqb out_front]; ring|]. destruct (Rleb v (1 / 10 + 2 / 10)).
    - unfold enters. cbn [Z.add Z.eqb Pos.add eg_widths length Z.of_nat Pos.of_succ_nat Pos.eqb]. unfold in_layer. cbn [val]. destruct (Rltb _ _); ring.
    - cbn [counts_at surface_ahead Z.eqb Pos.eqb Z.of_nat]. ring. }
  apply (mean_ext 1 (fun u => val mats eg_widths eg_coated eg_options (AbsorbedAt 0) 1 0 0 1 1 u)); [|exact M].
  intros u Hu. unfold mats. change 3%nat with (3 + 0)%nat.
  rewrite (calc_val S _ eg_mats eg_widths eg_inc eg_trn surfs eg_coated eg_options eg_draws 4 1 0 1 HB HO HF ltac:(lra) eg_all_absorb (le_n 1) LT (le_n 1) (AbsorbedAt 0) u Hu (Nat.le_0_l _)).
  rewrite eg_one_ray. cbn [seq map rsum INR Nat.mul Nat.add]. change (start_mat eg_options) with 0%Z. change (start_dir eg_options) with 1%Z. rewrite Rinv_1. change (fun j : nat => u j) with u. ring.
Qed.
