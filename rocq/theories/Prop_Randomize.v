(* C133 for whole rays: randomize_surface in rt_structure.calculate. *)
From Coq Require Import Reals List Bool ZArith Lra Lia FunctionalExtensionality.
From Verif Require Import Base Lib Model_Angles Model_Optics Model_OpticsC Model_RayIface Model_RayStack Model_Surface Model_RTStruct Model_Trace
  Model_StackRay Model_StackCalc
  Spec_Optics Spec_OpticsC Spec_RayIface Spec_RayStack Spec_Surface Spec_RTStruct Spec_Trace Spec_StackRay Spec_StackCalc
  Proof_Optics Proof_OpticsC Proof_OpticsC2 Proof_RayStack Proof_RTStruct Proof_RTStruct2 Proof_RTStruct3 Proof_StackRay Proof_StackFlat Proof_StackPlanar
  Proof_StackCalc Proof_StackCalc2 Prop_StackCalc.
Import ListNotations.
Open Scope R_scope.

(* the same state with the ray somewhere else *)
Definition elsewhere (st : fstate) (p : option vec) : fstate :=
  {| x_st := x_st st; x_pos := p; x_dir := x_dir st; x_nint := x_nint st; x_checks := x_checks st; x_phi := x_phi st; x_loc := x_loc st |}.
(* the same numbers except for those that randomise positions *)
Definition with_uv (w : rt_draws) (uv : nat -> nat -> R * R) : rt_draws :=
  {| w_x := w_x w; w_y := w_y w; w_ray := fun k => {| dr_rnd := dr_rnd (w_ray w k); dr_xy := dr_xy (w_ray w k); dr_uv := uv k |};
     w_seen := w_seen w; w_hs := w_hs w |}.

(* with randomize_surface it does not matter for what follows where a ray is after its first surface *)
Theorem C133_position_forgotten : forall outer fuel surfs mats widths tables o w k st p,
  c_randomize o = true -> (0 < s_passes (x_st st))%nat ->
  frun outer fuel (calc_setup surfs mats widths tables o w k) (elsewhere st p) = frun outer fuel (calc_setup surfs mats widths tables o w k) st.
Proof.
  intros outer fuel surfs mats widths tables o w k st p HR HP. destruct outer as [|n]; [reflexivity|]. cbn [frun].
  assert (E : fstep fuel (calc_setup surfs mats widths tables o w k) (elsewhere st p) = fstep fuel (calc_setup surfs mats widths tables o w k) st); [|now rewrite E].
  set (U := calc_setup surfs mats widths tables o w k). assert (RU : u_randomize U = true) by exact HR. clearbody U.
  unfold fstep. cbn [elsewhere x_st x_pos x_dir x_nint x_checks]. destruct (py_index (u_faces U) (s_surf (x_st st))) as [f|e]; [|reflexivity].
  unfold face_ray. rewrite RU. destruct (Nat.ltb_spec 0 (s_passes (x_st st))); [|lia]. reflexivity.
Qed.
Print Assumptions C133_position_forgotten.

(* without it the numbers that randomise positions do not matter *)
Theorem C133_not_randomised : forall outer fuel surfs mats widths tables o w uv, c_randomize o = false ->
  calculate outer fuel surfs mats widths tables o (with_uv w uv) = calculate outer fuel surfs mats widths tables o w.
Proof.
  intros outer fuel surfs mats widths tables o w uv HR.
  assert (S1 : forall k st, fstep fuel (calc_setup surfs mats widths tables o (with_uv w uv) k) st = fstep fuel (calc_setup surfs mats widths tables o w k) st).
  { intros k st. unfold fstep, face_ray, face_env, calc_setup. cbn [u_K u_faces u_nks u_draws u_randomize u_periodic with_uv w_ray w_seen w_hs dr_rnd dr_xy]. rewrite HR. reflexivity. }
  assert (S2 : forall k n st, frun n fuel (calc_setup surfs mats widths tables o (with_uv w uv) k) st = frun n fuel (calc_setup surfs mats widths tables o w k) st).
  { intros k. induction n as [|n IH]; intros st; [reflexivity|]. cbn [frun]. rewrite S1. destruct (fstep _ _ _) as [[[s|s]|e]|]; auto. }
  unfold calculate, calc_rays. destruct (nth_error surfs 0) as [s0|]; [|reflexivity]. cbn [with_uv w_x w_y].
  assert (S3 : forall r_a x y m d, (fun k => trace_stack outer fuel (calc_setup surfs mats widths tables o (with_uv w uv) k) r_a x y m d) =
    (fun k => trace_stack outer fuel (calc_setup surfs mats widths tables o w k) r_a x y m d)).
  { intros. apply functional_extensionality. intros k. unfold trace_stack, fstart. cbn [calc_setup u_K]. destruct (rbind _ _); [apply S2|reflexivity]. }
  match goal with |- context [fill_rays None ?f] => match f with context [with_uv] => set (F := f) end end.
  assert (EF : F = fun k x y => trace_stack outer fuel (calc_setup surfs mats widths tables o w k) (start_vector (lmax (zs_of (su_pts s0))) (c_theta o) (c_phi o)) x y
    (match c_mat o with Some m => m | None => 0%Z end) (match c_dir o with Some d => d | None => 1%Z end)).
  { unfold F. apply functional_extensionality. intros k. apply functional_extensionality. intros x. apply functional_extensionality. intros y.
    exact (f_equal (fun g => g k) (S3 (start_vector (lmax (zs_of (su_pts s0))) (c_theta o) (c_phi o)) x y (match c_mat o with Some m => m | None => 0%Z end) (match c_dir o with Some d => d | None => 1%Z end))). }
  rewrite EF. reflexivity.
Qed.
Print Assumptions C133_not_randomised.

(* the check of the second and any later surface: from a point on the side the ray comes from, so that it crosses the covered height at the point drawn *)
Theorem C133_later_checks : forall fuel surfs mats widths tables o w k st r f, let U := calc_setup surfs mats widths tables o w k in
  c_randomize o = true -> (0 < s_passes (x_st st))%nat -> fstep fuel U st = Some (Ok r) -> py_index (u_faces U) (s_surf (x_st st)) = Ok f ->
  0 < f_Lx f -> 0 < f_Ly f -> s_zmin (f_surf f (x_checks st) 0) <= f_zcov f <= s_zmax (f_surf f (x_checks st) 0) ->
  let u := fst (dr_uv (w_ray w k) (x_checks st)) in let v := snd (dr_uv (w_ray w k) (x_checks st)) in 0 <= u < 1 -> 0 <= v < 1 ->
  (s_dir (x_st st) = 1 \/ s_dir (x_st st) = -1)%Z -> vz (x_dir st) <> 0 ->
  exists E p res, e_surf E = f_surf f (x_checks st) /\
    (vz (x_dir st) < 0 -> s_zmax (f_surf f (x_checks st) 0) < vz p) /\ (0 < vz (x_dir st) -> vz p < s_zmin (f_surf f (x_checks st) 0)) /\
    (exists t, 0 < t /\ vadd p (vscale t (x_dir st)) = mkv (u * f_Lx f) (v * f_Ly f) (f_zcov f)) /\
    (single_interface_check fuel E (Some p) (x_dir st) (s_dir (x_st st)) (x_nint st) = Some (Ok res) \/
     single_cell_check fuel E (Some p) (x_dir st) (s_dir (x_st st)) (x_nint st) = Some res) /\
    let st' := match r with inl s => s | inr s => s end in x_pos st' = Model_RayIface.r_pos res /\ x_dir st' = r_dir res.
Proof.
  intros fuel surfs mats widths tables o w k st r f U HR HP HF Ef HX HY HZ u v Hu Hv HD Hz.
  assert (RU : u_randomize U = true) by exact HR. assert (DU : u_draws U = w_ray w k) by reflexivity. clearbody U.
  unfold fstep in HF. rewrite Ef in HF. unfold face_ray in HF. rewrite RU, DU in HF. destruct (Nat.ltb_spec 0 (s_passes (x_st st))) as [_|]; [|lia]. cbn [andb] in HF.
  pose proof (randomized_ok (f_Lx f) (f_Ly f) (s_zmin (f_surf f (x_checks st) 0)) (s_zmax (f_surf f (x_checks st) 0)) (f_zcov f) u v (s_dir (x_st st)) (x_dir st) HX HY HZ Hu Hv HD) as RO.
  fold u v in HF. destruct (randomized _ _ _ _ _ _ _ _ _) as [p d'] eqn:ER. destruct RO as (R1 & _ & _ & _ & _ & R2 & R3 & R4 & R5). rewrite (R1 Hz) in *.
  rewrite R5 in HF. assert (PU : (if u_periodic U then Some p else Some p) = Some p) by (destruct (u_periodic U); reflexivity). rewrite PU in HF. clear PU.
  destruct (rbind _ _) as [[ni nj]|e]; [|discriminate].
  set (E := face_env U f (x_checks st) ni nj) in *. destruct (u_periodic U).
  - destruct (single_interface_check fuel E (Some p) (x_dir st) (s_dir (x_st st)) (x_nint st)) as [[res|e]|] eqn:EC; [|discriminate|discriminate].
    exists E, p, res. split; [reflexivity|]. split; [exact R2|]. split; [exact R3|]. split; [exact R4|]. split; [now left|].
    destruct (sstep _ _ _) as [[s'|s']|e]; [| |discriminate]; injection HF as <-; split; reflexivity.
  - destruct (single_cell_check fuel E (Some p) (x_dir st) (s_dir (x_st st)) (x_nint st)) as [res|] eqn:EC; [|discriminate]. cbn [option_map] in HF.
    exists E, p, res. split; [reflexivity|]. split; [exact R2|]. split; [exact R3|]. split; [exact R4|]. split; [now right|].
    destruct (sstep _ _ _) as [[s'|s']|e]; [| |discriminate]; injection HF as <-; split; reflexivity.
Qed.
Print Assumptions C133_later_checks.

(* the layer of C173_example: randomised with one set of options, not with the other *)
Example C133_calculate_case : c_randomize (eg_opts true 0) = true /\ c_randomize (eg_opts false 0) = false /\
  forall S surfs, built_structure S [0; 0]%nat eg_mats eg_widths eg_inc eg_trn surfs ->
    calculate 1 3 surfs (eg_inc :: eg_mats ++ [eg_trn]) eg_widths eg_tables (eg_opts false 0) (with_uv eg_draws (fun k j => (1 / 2, 1 / 3))) =
    calculate 1 3 surfs (eg_inc :: eg_mats ++ [eg_trn]) eg_widths eg_tables (eg_opts false 0) eg_draws.
Proof. split; [reflexivity|]. split; [reflexivity|]. intros. now apply C133_not_randomised. Qed.

(* its ray in the layer after the first surface, half way down: it is checked at the second surface *)
Definition in_layer : fstate :=
  {| x_st := {| s_dir := 1; s_mat := 1; s_surf := 1; s_I := 1; s_theta := Some 0; s_profile := []; s_A := [0]; s_passes := 1; s_Aint := []; s_Aidx := 0 |};
     x_pos := Some (mkv (1 / 3) (1 / 3) (- (1 / 2))); x_dir := mkv 0 0 (-1); x_nint := 1; x_checks := 1; x_phi := 0; x_loc := 0 |}.

Example C133_layer_case : exists S surfs r f, let U := calc_setup surfs (eg_inc :: eg_mats ++ [eg_trn]) eg_widths eg_tables eg_options eg_draws 0 in
  built_structure S [0; 0]%nat eg_mats eg_widths eg_inc eg_trn surfs /\ c_randomize eg_options = true /\ (0 < s_passes (x_st in_layer))%nat /\
  fstep 3 U in_layer = Some (Ok r) /\ py_index (u_faces U) (s_surf (x_st in_layer)) = Ok f /\
  0 < f_Lx f /\ 0 < f_Ly f /\ s_zmin (f_surf f (x_checks in_layer) 0) <= f_zcov f <= s_zmax (f_surf f (x_checks in_layer) 0).
Proof.
  destruct eg_structure as (S & surfs & HB & HO & HF). set (mats := eg_inc :: eg_mats ++ [eg_trn]) in *. pose proof PI_RGT_0 as PP.
  pose proof (calc_planar S _ _ _ _ _ surfs eg_tables eg_options eg_draws HB HO HF 0) as HP. fold mats in HP.
  set (U := calc_setup surfs mats eg_widths eg_tables eg_options eg_draws 0) in *.
  assert (WS : map (fun x => 10 ^ 6 * x) eg_widths = [1]) by (cbn [eg_widths map]; f_equal; field). rewrite WS in HP.
  assert (SN : forall m, snell (media mats eg_options) (start_mat eg_options) (c_theta eg_options) m = 0).
  { intros m. unfold snell. cbn [eg_options eg_opts c_theta]. rewrite sin_0, Rmult_0_r. unfold Rdiv. rewrite Rmult_0_l. apply asin_0. }
  assert (RT : route mats eg_tables eg_options eg_draws 0 1 = (1, 1)%Z).
  { unfold route. cbn [planar_at]. unfold next_fate. rewrite SN. change (film_ahead _ _ _) with (Bare PolU). cbn [meets_film].
    change (nk_of (media mats eg_options) (start_mat eg_options)) with (creal 1).
    change (nk_of (media mats eg_options) (start_mat eg_options + start_dir eg_options)) with (mkc 2 1).
    change (dr_rnd (w_ray eg_draws 0) 0%nat) with (9 / 10).
    assert (F : Rleb (9 / 10) (fresnel_Rc (creal 1) (mkc 2 1) 0 PolU) = false).
    { apply Rleb_false. destruct (fresnel_Rc_cases (creal 1) (mkc 2 1) 0 PolU) as [_ FQ]; cbn [re creal]; try lra.
      rewrite FQ by (rewrite sin_0; cbn [re creal]; lra). unfold creal. rewrite calc_Rc_normal by lra. lra. }
    rewrite F. reflexivity. }
  assert (RL : rel U [1] (films_on (c_pol eg_options) eg_tables) (start_mat eg_options) (start_dir eg_options) (c_theta eg_options) 0 1 in_layer).
  { constructor.
    - exact RT.
    - split; [now left|]. split; [reflexivity|]. cbn. lia.
    - change (u_nks U) with (media mats eg_options). rewrite SN. cbn [in_layer x_dir x_st s_dir]. unfold travel. rewrite sin_0, cos_0. f_equal; ring.
    - cbn [eg_options eg_opts c_theta]. rewrite sin_0, Rmult_0_r. change (0 < re (mkc 2 1)). cbn [re]. lra.
    - eexists. split; [reflexivity|]. cbn [in_layer x_st s_surf s_dir vz]. change (Z.to_nat 1) with 1%nat. unfold depth. cbn [firstn rsum]. lra.
    - reflexivity.
    - reflexivity. }
  destruct (planar_check 0 U [1] _ _ (start_dir eg_options) _ 0 HP) with (k := 1%nat) (st := in_layer) as (pos & dv & loc & _ & FS); [cbn; lia|cbn; lra|exact RL|].
  cbv zeta in FS. change (3 + 0)%nat with 3%nat in FS.
  match type of FS with context [sstep ?K ?st ?o] => destruct (sstep_placed K [1] st o (st_stack _ _ (pl_struct _ _ _ _ _ HP)) (rl_placed _ _ _ _ _ _ _ _ _ RL)) as (q & Eq & _) end.
  rewrite Eq in FS.
  destruct (pl_faces _ _ _ _ _ HP 1%nat) as (f & Nf & (Lx & Ly & Zc & Lv) & _); [cbn; lia|].
  exists S, surfs, (match q with inl s => inl (after_check 1 pos dv (match planar_out (u_nks U) (films_on (c_pol eg_options) eg_tables) (start_mat eg_options) (start_dir eg_options) (c_theta eg_options) (dr_rnd (u_draws U)) 1 with OAbsorbed _ => 0 | _ => atan2 (vy dv) (vx dv) end) loc s) | inr s => inr (after_check 1 pos dv (match planar_out (u_nks U) (films_on (c_pol eg_options) eg_tables) (start_mat eg_options) (start_dir eg_options) (c_theta eg_options) (dr_rnd (u_draws U)) 1 with OAbsorbed _ => 0 | _ => atan2 (vy dv) (vx dv) end) loc s) end), f.
  cbv zeta. fold U. split; [exact HB|]. split; [reflexivity|]. split; [cbn; lia|]. split; [rewrite FS; destruct q; reflexivity|].
  split.
  { destruct (py_index_in (u_faces U) 1) as (f' & Ef & Nf'); [rewrite (st_faces _ _ (pl_struct _ _ _ _ _ HP)); cbn; lia|].
    change (Z.to_nat 1) with 1%nat in Nf'. rewrite Nf in Nf'. injection Nf' as <-. exact Ef. }
  split; [exact Lx|]. split; [exact Ly|]. destruct (Lv (x_checks in_layer) 0%nat) as (Zn & Zx & _). lra.
Qed.
