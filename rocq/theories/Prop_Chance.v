(* C180-C181: how close ray-traced totals are to their averages, by the number of rays. *)
From Coq Require Import Reals List Bool ZArith Lia Lra.
From Verif Require Import Base Lib Model_Angles Model_Optics Model_OpticsC Model_RayIface Model_RayStack Model_Surface Model_RTStruct Model_Trace
  Model_StackRay Model_StackCalc
  Spec_Optics Spec_OpticsC Spec_RayIface Spec_RayStack Spec_Surface Spec_RTStruct Spec_Trace Spec_StackRay Spec_StackCalc Spec_Mean Spec_Slab Spec_Chance
  Proof_Mean Proof_Trees Proof_MeanCalc Proof_Chance Prop_StackCalc Prop_Mean.
Import ListNotations.
Open Scope R_scope.

(* ---------- C180 ---------- *)

(* any textures, lookup tables and options: if the calculation ends whatever the random numbers that decide at the surfaces, then each
   total has an average over them, and is off by eps or more with a chance of at most 1 / (4 n_rays eps^2).
   The positions of the rays and the other draws are fixed. *)
Theorem C180_chance : forall S textures materials widths inc trn surfs tables o w outer fuel n rd,
  let mats := inc :: materials ++ [trn] in
  let result u := calculate outer fuel surfs mats widths tables o (with_numbers w n u) in
  built_structure S textures materials widths inc trn surfs -> sound_options mats widths tables surfs o w -> (outer * fuel <= n)%nat ->
  (forall u, fractions u -> none_level fuel surfs mats widths tables o (with_numbers w n u)) -> (forall u, fractions u -> result u <> None) ->
  of_structure widths rd ->
  let numbers := (n_reps_of (c_nrays o) (c_nx o) (c_ny o) * c_nx o * c_ny o * n)%nat in
  exists m, mean numbers (fun u => reported rd (result u)) m /\
    forall eps, 0 < eps -> rarely_off numbers (fun u => reported rd (result u)) m eps (1 / (4 * INR (c_nrays o) * eps ^ 2)).
Proof.
  intros S textures materials widths inc trn surfs tables o w outer fuel n rd mats result HB HO Hn HL HE Hr numbers.
  destruct (first_surface S textures materials widths inc trn surfs o HB) as [s0 Hs].
  destruct (close_to_average S textures materials widths inc trn surfs tables o w outer fuel n HB HO Hn HL HE s0 Hs rd Hr) as (m & M & P).
  exists m. split; [exact M|]. intros eps He. specialize (P eps m 0 He). rewrite Rplus_0_r in P. apply P. rewrite Rminus_diag_eq by reflexivity. rewrite Rabs_R0. lra.
Qed.
Print Assumptions C180_chance.

(* ---------- C181 ---------- *)

(* planar structures of absorbing layers: R, T and the absorption in each layer and at each surface are off the balance of power of C177 by eps or more, beyond
   the threshold, with a chance of at most 1 / (4 n_rays eps^2) *)
Theorem C181_planar : forall S textures materials widths inc trn surfs tables o w c n fuel q X eps,
  let mats := inc :: materials ++ [trn] in
  built_structure S textures materials widths inc trn surfs -> sound_options mats widths tables surfs o w ->
  flat_structure S textures widths mats tables o w ->
  0 < c -> (forall i, (i < length widths)%nat -> c <= 4 * PI * im (nth i materials inc (c_wl o)) / c_wl o * nth i widths 0) ->
  (1 <= n)%nat -> - ln (c_thresh o) < INR n * c ->
  within widths q -> balance mats widths tables o q X -> 0 < eps ->
  let each := (n * (3 + fuel))%nat in
  rarely_off (n_reps_of (c_nrays o) (c_nx o) (c_ny o) * c_nx o * c_ny o * each)
    (fun u => given q (calculate n (3 + fuel) surfs mats widths tables o (with_numbers w each u)))
    (X (start_mat o) (start_dir o)) (eps + c_thresh o) (1 / (4 * INR (c_nrays o) * eps ^ 2)).
Proof.
  intros S textures materials widths inc trn surfs tables o w c n fuel q X eps mats HB HO HF Hc HA Hn HT Hq HX He each.
  destruct (first_surface S textures materials widths inc trn surfs o HB) as [s0 Hs].
  assert (EB : (n <= each)%nat) by (unfold each; nia).
  destruct (C177_mean S textures materials widths inc trn surfs tables o w c n fuel each q X HB HO HF Hc HA Hn HT EB Hq HX) as (m & M & B).
  destruct (close_to_average S textures materials widths inc trn surfs tables o w n (3 + fuel) each HB HO (le_n _)) with (s0 := s0) (rd := ValueOf q) as (m' & M' & P).
  - intros u Hu. apply (C173_planar_not_level S textures).
    + exact HB.
    + exact (numbers_sound materials widths inc trn surfs tables o w each HO u Hu).
    + exact (numbers_flat S textures materials widths inc trn tables o w each HF u).
  - intros u Hu. destruct (C177_reports S textures materials widths inc trn surfs tables o w c n fuel each u HB HO HF Hc HA Hn HT EB Hu) as (t & rs & E). fold mats in E. intros Z. pose proof (eq_trans (eq_sym E) Z) as Q. discriminate Q.
  - exact Hs.
  - exact Hq.
  - assert (E : m' = m) by (apply (mean_unique _ _ _ _ M'); exact M). subst m'.
    apply (P eps (X (start_mat o) (start_dir o)) (c_thresh o) He). pose proof (op_thresh _ _ _ _ _ _ HO). apply Rabs_le. lra.
Qed.
Print Assumptions C181_planar.

(* ---------- the example of C173-C179 ---------- *)

Example C180_example : exists S surfs, built_structure S [0; 0]%nat eg_mats eg_widths eg_inc eg_trn surfs /\
  sound_options (eg_inc :: eg_mats ++ [eg_trn]) eg_widths eg_tables surfs eg_options eg_draws /\
  (forall u, fractions u -> none_level 3 surfs (eg_inc :: eg_mats ++ [eg_trn]) eg_widths eg_tables eg_options (with_numbers eg_draws 3 u)) /\
  (forall u, fractions u -> calculate 1 3 surfs (eg_inc :: eg_mats ++ [eg_trn]) eg_widths eg_tables eg_options (with_numbers eg_draws 3 u) <> None) /\
  exists X, balance (eg_inc :: eg_mats ++ [eg_trn]) eg_widths eg_tables eg_options Reflected X /\
    rarely_off 3 (fun u => given Reflected (calculate 1 3 surfs (eg_inc :: eg_mats ++ [eg_trn]) eg_widths eg_tables eg_options (with_numbers eg_draws 3 u)))
      (X 0%Z 1%Z) (1 + 1 / 10) (1 / 4).
Proof.
  destruct C177_example as (S & surfs & X & HB & HO & HF & HX & _ & LT & AB & _).
  set (mats := eg_inc :: eg_mats ++ [eg_trn]) in *.
  assert (HA : forall i, (i < length eg_widths)%nat -> 4 <= 4 * PI * im (nth i eg_mats eg_inc (c_wl eg_options)) / c_wl eg_options * nth i eg_widths 0).
  { intros [|i] Hi; cbn [eg_widths length] in Hi; [exact AB|lia]. }
  exists S, surfs. split; [exact HB|]. split; [exact HO|]. split; [|split].
  - intros u Hu. apply (C173_planar_not_level S [0; 0]%nat).
    + exact HB.
    + exact (numbers_sound eg_mats eg_widths eg_inc eg_trn surfs eg_tables eg_options eg_draws 3 HO u Hu).
    + exact (numbers_flat S _ eg_mats eg_widths eg_inc eg_trn eg_tables eg_options eg_draws 3 HF u).
  - intros u Hu. destruct (C177_reports S _ eg_mats eg_widths eg_inc eg_trn surfs eg_tables eg_options eg_draws 4 1 0 3 u HB HO HF ltac:(lra) HA (le_n 1) LT ltac:(lia) Hu) as (t & rs & E).
    intros Z. pose proof (eq_trans (eq_sym E) Z) as Q. discriminate Q.
  - exists X. split; [exact HX|].
    pose proof (C181_planar S _ eg_mats eg_widths eg_inc eg_trn surfs eg_tables eg_options eg_draws 4 1 0 Reflected X 1 HB HO HF ltac:(lra) HA (le_n 1) LT I HX Rlt_0_1) as P.
    cbv zeta in P. fold mats in P.
    assert (NR : (n_reps_of (c_nrays eg_options) (c_nx eg_options) (c_ny eg_options) * c_nx eg_options * c_ny eg_options = 1)%nat).
    { cbn [eg_options eg_opts c_nx c_ny c_nrays]. unfold n_reps_of. rewrite (Zceil_unique _ 1) by (cbn [Nat.mul Nat.add INR]; lra). reflexivity. }
    rewrite NR in P. change (c_thresh eg_options) with (1 / 10) in P. cbn [eg_options eg_opts c_nrays INR] in P.
    replace (1 / (4 * 1 * 1 ^ 2)) with (1 / 4) in P by field. exact P.
Qed.
