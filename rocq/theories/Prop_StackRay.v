(* C161-C164: rays followed through a stack of surfaces, with their positions and directions. *)
From Coq Require Import Reals List Bool ZArith Lia Lra.
From Verif Require Import Base Lib Model_Angles Model_Optics Model_OpticsC Model_RayIface Model_RayStack Model_Surface Model_RTStruct Model_Trace Model_StackRay
  Spec_Optics Spec_OpticsC Spec_RayIface Spec_RayStack Spec_Surface Spec_RTStruct Spec_Trace Spec_StackRay
  Proof_Optics Proof_OpticsC Proof_OpticsC2 Proof_RayIface2 Proof_RayStackEx Proof_StackRay Proof_StackFlat Proof_StackPlanar Prop_RayStack Prop_Trace.
Import ListNotations.
Open Scope R_scope.

(* ---------- the example: one layer of 1 um between two flat surfaces ---------- *)

(* films on both surfaces, indices 1, 2, 1 + i, every random number 9/10 *)
Definition demo_nks : list cplx := [creal 1; creal 2; mkc 1 1].
Definition demo (f0 f1 : cplx -> cplx -> decision) (s0 s1 : rtsurf) : setup :=
  {| u_K := ex_K; u_faces := [facing_of s0 (fun _ => 0%nat) (fun _ => 0) f0; facing_of s1 (fun _ => 0%nat) (fun _ => 0) f1];
     u_nks := demo_nks; u_draws := {| dr_rnd := fun _ => 9 / 10; dr_xy := fun _ _ => (0, 0); dr_uv := fun _ => (0, 0) |};
     u_randomize := true; u_periodic := true |}.

Lemma film_usable c : match c with Bare _ => True | Coated ent => forall side th, (forall a, In a (te_A (ent side th)) -> 0 <= a) /\ 0 < rsum (te_A (ent side th)) end ->
  forall ni nj, optical_medium ni -> optical_medium nj -> usable (film_dec c ni nj).
Proof.
  intros H ni nj Mi Mj. assert (RD : real_decision (film_dec c ni nj)) by (destruct c; constructor; assumption). split; [exact RD|].
  intros th rnd A _ HA. destruct HA as (side & d & N & _ & _ & _ & E). destruct c as [p|ent]; cbn [film_dec] in E.
  - unfold fresnel_decision_c, decide_RT_Fresnel_c in E. destruct (Z.eqb side 1), (Rleb _ _); discriminate.
  - assert (Q : A = te_A (ent side (Rabs th))).
    { unfold table_decision_c, decide_RT_TMM_c in E. destruct (Z.eqb side 1), (Rleb _ _); try discriminate; destruct (_ && _); try discriminate; now injection E as <-. }
    rewrite Q. apply H.
Qed.

Definition coat : film := Coated (fun _ _ => {| te_R := 1 / 10; te_T := 2 / 10; te_A := [3 / 10; 4 / 10] |}).

Lemma demo_index m : (0 <= m <= 2)%Z -> 0 < index_of demo_nks m.
Proof.
  intros H. assert (C : (m = 0 \/ m = 1 \/ m = 2)%Z) by lia. unfold index_of, nk_of, demo_nks.
  destruct C as [-> | [-> | ->]]; unfold Z.to_nat, Pos.to_nat; cbn [Pos.iter_op Nat.add nth re creal]; lra.
Qed.

Lemma demo_planar c : c = Bare PolU \/ c = coat -> exists s0 s1, planar_structure (demo (film_dec c) (film_dec (Bare PolU)) s0 s1) [1] [c; Bare PolU] 0 0.
Proof.
  intros Hc. destruct a_flat_surface as [s [E F]].
  set (S := {| arrays := [su_pts s]; objects := [{| so_pts := 0; so_rest := s |}] |}).
  assert (SA : surface_at S 0%nat = Some s). { unfold surface_at, S. cbn [objects arrays nth_error so_pts so_rest]. f_equal. destruct s; reflexivity. }
  destruct (built_level R S [0; 0]%nat [1] [1 / 10 ^ 6] 0 0) as (S' & su & cw & _ & _ & B); [reflexivity| |].
  { intros o Ho. destruct Ho as [<-|[<-|[]]]; exists s, 1, 1; split; auto; split; try lra; split; auto; lra. }
  destruct (B 0%nat) as (q0 & s0 & _ & _ & L0); [cbn; lia|]. destruct (B 1%nat) as (q1 & s1 & _ & _ & L1); [cbn; lia|].
  exists s0, s1. replace (map (fun w => 10 ^ 6 * w) [1 / 10 ^ 6]) with [1] in L0, L1 by (cbn [map]; f_equal; field).
  assert (US : forall ni nj, optical_medium ni -> optical_medium nj -> usable (film_dec c ni nj)).
  { apply film_usable. destruct Hc as [-> | ->]; cbn [coat]; [exact I|]. intros _ _. cbn [te_A rsum]. split; [|lra]. intros a [<-|[<-|[]]]; lra. }
  constructor.
  - constructor.
    + exact ex_stack.
    + reflexivity.
    + reflexivity.
    + intros n Hn. cbn [demo u_nks demo_nks] in Hn. destruct Hn as [<-|[<-|[<-|[]]]]; split; cbn [re im creal]; lra.
    + intros f ni nj [<-|[<-|[]]]; cbn [facing_of f_dec]; [apply US|]. now apply (film_usable (Bare PolU)).
    + intros k. cbn. lra.
  - reflexivity.
  - intros w [<-|[]]. lra.
  - reflexivity.
  - intros i Hi. cbn [length] in Hi. destruct i as [|[|i]]; [| |lia]; cbn [demo u_faces nth_error].
    + eexists. split; [reflexivity|]. split; [apply L0|reflexivity].
    + eexists. split; [reflexivity|]. split; [apply L1|reflexivity].
  - intros m d ent Hd Hm Hmd Ef Hle. exfalso. rewrite sin_0, Rmult_0_r in Hle. cbn [length] in *. pose proof (demo_index (m + d) ltac:(lia)).
    cbn [demo u_nks] in Hle. lra.
  - intros m d ent Hd Hm Hmd Ef. cbn [length] in *. cbn [demo u_nks]. unfold film_ahead in Ef.
    assert (C : (m = 0 /\ d = 1 \/ m = 1 /\ d = -1 \/ m = 1 /\ d = 1 \/ m = 2 /\ d = -1)%Z) by lia.
    left. destruct C as [[-> ->]|[[-> ->]|[[-> ->]|[-> ->]]]]; try (cbn in Ef; discriminate); unfold in_phase, nk_of, demo_nks, Z.to_nat, Pos.to_nat; cbn [Z.add Z.sub Z.opp Z.pos_sub Pos.iter_op Nat.add nth re im creal]; ring.
  - intros m d p Hd Hm Hmd Ef Hle. exfalso. rewrite sin_0, Rmult_0_r in Hle. cbn [length] in *. pose proof (demo_index (m + d) ltac:(lia)).
    cbn [demo u_nks] in Hle. lra.
  - intros k. cbn. lra.
Qed.

Lemma demo_snell m : (0 <= m <= 2)%Z -> snell demo_nks 0 0 m = 0.
Proof. intros H. unfold snell. rewrite sin_0, Rmult_0_r. replace (0 / index_of demo_nks m) with 0 by (unfold Rdiv; ring). apply asin_0. Qed.

Lemma demo_fresnel n0 n1 : n0 = creal 1 /\ n1 = creal 2 \/ n0 = creal 2 /\ n1 = mkc 1 1 -> Rleb (9 / 10) (fresnel_Rc n0 n1 0 PolU) = false.
Proof.
  intros H. apply Rleb_false. pose proof PI2_RGT_0.
  assert (P : 0 < re n0 /\ 0 < re n1) by (destruct H as [[-> ->]|[-> ->]]; cbn [re creal]; lra).
  destruct (fresnel_Rc_cases n0 n1 0 PolU (proj1 P) (proj2 P) ltac:(lra)) as [_ Q].
  rewrite Q by (rewrite sin_0; lra). destruct H as [[-> ->]|[-> ->]]; unfold creal; rewrite calc_Rc_normal by lra; lra.
Qed.

Lemma demo_out c : c = Bare PolU -> forall k, (k < 2)%nat -> planar_out demo_nks [c; Bare PolU] 0 1 0 (fun _ => 9 / 10) k = OTransmitted PI.
Proof.
  intros -> k Hk.
  assert (S0 : snell demo_nks 0 0 0 = 0) by (apply demo_snell; lia).
  assert (S1 : snell demo_nks 0 0 1 = 0) by (apply demo_snell; lia).
  assert (S2 : snell demo_nks 0 0 2 = 0) by (apply demo_snell; lia).
  assert (N0 : next_fate demo_nks [Bare PolU; Bare PolU] 0 0 (fun _ => 9 / 10) 0 1 0 = Onward).
  { unfold next_fate. rewrite S0. change (film_ahead _ _ _) with (Bare PolU). cbn [meets_film].
    change (nk_of demo_nks 0) with (creal 1). change (nk_of demo_nks (0 + 1)) with (creal 2). rewrite demo_fresnel by auto. reflexivity. }
  assert (N1 : next_fate demo_nks [Bare PolU; Bare PolU] 0 0 (fun _ => 9 / 10) 1 1 1 = Onward).
  { unfold next_fate. rewrite S1. change (film_ahead _ _ _) with (Bare PolU). cbn [meets_film].
    change (nk_of demo_nks 1) with (creal 2). change (nk_of demo_nks (1 + 1)) with (mkc 1 1). rewrite demo_fresnel by auto. reflexivity. }
  assert (A1 : planar_at demo_nks [Bare PolU; Bare PolU] 0 1 0 (fun _ => 9 / 10) 1 = (1, 1)%Z) by (cbn [planar_at]; rewrite N0; reflexivity).
  destruct k as [|[|k]]; [| |lia]; unfold planar_out.
  - cbn [planar_at]. rewrite N0. change (0 + 1)%Z with 1%Z. rewrite S1. unfold polar_of. cbn [Z.eqb Pos.eqb]. f_equal. ring.
  - rewrite A1, N1. change (1 + 1)%Z with 2%Z. rewrite S2. unfold polar_of. cbn [Z.eqb Pos.eqb]. f_equal. ring.
Qed.

Lemma demo_run : exists st, single_ray_stack 2 ex_K 0 1 (planar_out demo_nks [Bare PolU; Bare PolU] 0 1 0 (fun _ => 9 / 10)) = Some (Ok st) /\
  s_I st = exp (-1) /\ s_theta st = Some PI /\ nth 1 (s_A st) 0 = 1 - exp (-1).
Proof.
  destruct ex_run as (st & E & H). exists st. split; [|exact H]. unfold single_ray_stack in *. cbn [srun] in *.
  rewrite !(demo_out (Bare PolU) eq_refl) by lia. exact E.
Qed.

Lemma start_up h theta phi : 0 <= h -> 0 <= theta < PI / 2 -> 0 < vz (start_vector h theta phi).
Proof.
  intros Hh Ht. assert (C : 0 < cos theta) by (apply cos_gt_0; lra). unfold start_vector. cbn [vz].
  apply Rmult_lt_0_compat; auto. apply Rabs_pos_lt. assert (0 < (h + 1 / 10 ^ 8) / cos theta) by (apply Rdiv_lt_0_compat; lra). lra.
Qed.

(* ---------- C161 ---------- *)

(* whatever the surfaces, a finished ray is one of those C27-C32 are about, and is reported with its true direction *)
Theorem C161_ray : forall U ws st outer fuel r_a_0 x y m0 d0 out, structure_of U ws -> good_start ws m0 d0 -> 0 < vz r_a_0 ->
  fstart U r_a_0 x y m0 d0 = Ok st -> never_level fuel U st -> trace_stack outer fuel U r_a_0 x y m0 d0 = Some out ->
  exists fin, out = Ok fin /\ traced (u_K U) ws (x_st fin) /\ unit (x_dir fin) /\
    (forall th, s_theta (x_st fin) = Some th -> th = acos (vz (x_dir fin)) /\ x_phi fin = atan2 (vy (x_dir fin)) (vx (x_dir fin))).
Proof. exact ray_traced. Qed.
Print Assumptions C161_ray.

(* the set-up itself never fails *)
Theorem C161_start : forall U ws r_a_0 x y m0 d0, structure_of U ws -> good_start ws m0 d0 -> 0 < vz r_a_0 ->
  exists st, fstart U r_a_0 x y m0 d0 = Ok st.
Proof. intros U ws r x y m0 d0 H1 H2 H3. destruct (fstart_good U ws r x y m0 d0 H1 H2 H3) as (st & E & _). eauto. Qed.
Print Assumptions C161_start.

(* R + T + A of any number of traced rays, each with its own random numbers and surfaces *)
Theorem C161_totals : forall K ws rays, rays <> [] -> stack_of K ws ->
  (forall st, In st rays -> exists U, u_K U = K /\ structure_of U ws /\ shot_through U ws st) ->
  let t := calculate_totals K (map x_st rays) in
  let total := t_R t + t_T t + rsum (t_A t) + rsum (t_Aint t) in
  1 - k_thresh K <= total <= 1 /\ 0 <= t_R0 t <= t_R t /\ 0 <= t_T t /\
  (forall a, In a (t_A t) -> 0 <= a) /\ (forall a, In a (t_Aint t) -> 0 <= a).
Proof.
  intros K ws rays NE HK HR. destruct (C29_totals K ws (map x_st rays) HK) as (H1 & H2 & H3 & _ & H4 & H5 & _).
  - now destruct rays.
  - intros r Hr. apply in_map_iff in Hr. destruct Hr as (st & <- & Hs). destruct (HR st Hs) as (U & <- & HU & outer & fuel & r0 & x & y & m0 & d0 & G & V & NL & T).
    destruct (fstart_good U ws r0 x y m0 d0 HU G V) as (st0 & E & _).
    destruct (C161_ray U ws st0 outer fuel r0 x y m0 d0 _ HU G V E (NL st0 E) T) as (fin & Ef & Tr & _). injection Ef as <-. exact Tr.
  - auto.
Qed.
Print Assumptions C161_totals.

Lemma demo_trace x y : exists s0 s1 fin, let U := demo (film_dec (Bare PolU)) (film_dec (Bare PolU)) s0 s1 in
  planar_structure U [1] [Bare PolU; Bare PolU] 0 0 /\ trace_stack 2 3 U (start_vector 1 0 0) x y 0 1 = Some (Ok fin) /\
  s_I (x_st fin) = exp (-1) /\ s_theta (x_st fin) = Some PI /\ x_nint fin = x_checks fin.
Proof.
  destruct (demo_planar (Bare PolU) (or_introl eq_refl)) as (s0 & s1 & HP). set (U := demo _ _ s0 s1) in *.
  pose proof PI_RGT_0 as PP. pose proof (planar_trace U [1] [Bare PolU; Bare PolU] 0 1 0 0 1 x y 2 0 HP ltac:(lra) ltac:(lra) ltac:(left; cbn; lia)) as Q.
  destruct demo_run as (st & E & I & T & _). change (dr_rnd (u_draws U)) with (fun _ : nat => 9 / 10) in Q. change (u_nks U) with demo_nks in Q.
  change (u_K U) with ex_K in Q. rewrite E in Q. destruct Q as (fin & Q1 & Q2 & Q3 & _). exists s0, s1, fin. cbv zeta. fold U.
  rewrite Q2. auto.
Qed.

Example C161_example : exists U fin, structure_of U [1] /\ shot_through U [1] fin /\ s_I (x_st fin) = exp (-1).
Proof.
  destruct (demo_trace (1 / 3) (1 / 4)) as (s0 & s1 & fin & HP & T & I & _). eexists. exists fin. split; [exact (pl_struct _ _ _ _ _ HP)|]. split; [|exact I].
  exists 2%nat, 3%nat, (start_vector 1 0 0), (1 / 3), (1 / 4), 0%Z, 1%Z. split; [left; cbn; lia|]. split; [apply start_up; pose proof PI_RGT_0; lra|].
  split; [|exact T]. intros st0 E. pose proof PI_RGT_0.
  destruct (planar_start _ [1] _ 0 1 0 0 1 (1 / 3) (1 / 4) HP ltac:(lra) ltac:(lra) ltac:(left; cbn; lia)) as (st & E' & _ & R).
  rewrite E in E'. injection E' as ->. intros z Hz. refine (planar_never_level 0 _ [1] _ 0 1 0 _ HP _ _ st z Hz 0 R); [cbn; lia|lra].
Qed.

(* ---------- C162 ---------- *)

(* in a planar stack what happens at each surface is told by its film, Snell's law and one random number: the position of
   the ray, the cells of the surfaces and the option randomize_surface do not matter; the azimuth stays *)
Theorem C162_planar : forall U ws films m0 d0 theta phi h x y outer fuel,
  planar_structure U ws films m0 theta -> 0 <= theta < PI / 2 -> 0 <= h ->
  (d0 = 1 /\ 0 <= m0 <= Z.of_nat (length ws))%Z \/ (d0 = -1 /\ 1 <= m0 <= Z.of_nat (length ws))%Z ->
  match single_ray_stack outer (u_K U) m0 d0 (planar_out (u_nks U) films m0 d0 theta (dr_rnd (u_draws U))) with
  | None => trace_stack outer (3 + fuel) U (start_vector h theta phi) x y m0 d0 = None
  | Some (Err _) => False
  | Some (Ok s') => exists fin, trace_stack outer (3 + fuel) U (start_vector h theta phi) x y m0 d0 = Some (Ok fin) /\
      x_st fin = s' /\ x_nint fin = x_checks fin /\
      forall th, s_theta s' = Some th -> x_dir fin = pointing th (phi + PI) /\
        (0 < sin th -> exists z : Z, x_phi fin = phi + PI + IZR z * (2 * PI))
  end.
Proof.
  intros U ws films m0 d0 theta phi h x y outer fuel HP Ht Hh HG. pose proof (planar_trace U ws films m0 d0 theta phi h x y outer fuel HP Ht Hh HG) as Q.
  destruct (single_ray_stack _ _ _ _ _) as [[s'|e]|]; auto. destruct Q as (fin & Q1 & Q2 & Q3 & Q4). exists fin. rewrite <- Q2. auto.
Qed.
Print Assumptions C162_planar.

Example C162_example : exists U fin fin', planar_structure U [1] [Bare PolU; Bare PolU] 0 0 /\
  trace_stack 2 3 U (start_vector 1 0 0) (1 / 3) (1 / 4) 0 1 = Some (Ok fin) /\
  trace_stack 2 3 U (start_vector 1 0 0) 5 7 0 1 = Some (Ok fin') /\ x_st fin = x_st fin' /\ s_theta (x_st fin) = Some PI.
Proof.
  destruct (demo_trace (1 / 3) (1 / 4)) as (s0 & s1 & fin & HP & T & I & Th & _). eexists. exists fin. pose proof PI_RGT_0.
  pose proof (C162_planar _ [1] _ 0 1 0 0 1 5 7 2 0 HP ltac:(lra) ltac:(lra) ltac:(left; cbn; lia)) as Q.
  pose proof (C162_planar _ [1] _ 0 1 0 0 1 (1 / 3) (1 / 4) 2 0 HP ltac:(lra) ltac:(lra) ltac:(left; cbn; lia)) as Q'.
  destruct (single_ray_stack _ _ _ _ _) as [[s'|e]|]; [|destruct Q|].
  - destruct Q as (fin' & Q1 & Q2 & _). destruct Q' as (fin2 & Q3 & Q4 & _). cbn [Nat.add] in *. rewrite T in Q3. injection Q3 as <-.
    exists fin'. split; [exact HP|]. split; [exact T|]. split; [exact Q1|]. split; [congruence|exact Th].
  - cbn [Nat.add] in Q'. congruence.
Qed.

(* ---------- C163 ---------- *)

(* the light: where it leaves, at Snell's angle of the outer medium, with the power Beer-Lambert leaves along its path; what
   each layer has absorbed; and the ray is one of those of C27-C32 *)
Theorem C163_planar_light : forall U ws films m0 d0 theta phi h x y outer fuel out,
  planar_structure U ws films m0 theta -> 0 <= theta < PI / 2 -> 0 <= h ->
  (d0 = 1 /\ 0 <= m0 <= Z.of_nat (length ws))%Z \/ (d0 = -1 /\ 1 <= m0 <= Z.of_nat (length ws))%Z ->
  trace_stack outer (3 + fuel) U (start_vector h theta phi) x y m0 d0 = Some out ->
  let path := planar_at (u_nks U) films m0 d0 theta (dr_rnd (u_draws U)) in
  exists fin k, out = Ok fin /\ traced (u_K U) ws (x_st fin) /\
    planar_end (u_nks U) films m0 d0 theta (dr_rnd (u_draws U)) (u_K U) (length ws) k (x_st fin) /\
    (forall j, (1 <= j <= k)%nat -> (1 <= fst (path j) <= Z.of_nat (length ws))%Z /\
       k_thresh (u_K U) <= planar_power (u_nks U) films m0 d0 theta (dr_rnd (u_draws U)) (u_K U) j) /\
    length (s_A (x_st fin)) = S (S (length ws)) /\
    (forall i, (i < S (S (length ws)))%nat -> nth i (s_A (x_st fin)) 0 =
       planar_lost_in (u_nks U) films m0 d0 theta (dr_rnd (u_draws U)) (u_K U) i (s_passes (x_st fin))).
Proof.
  intros U ws films m0 d0 theta phi h x y outer fuel out HP Ht Hh HG T. cbv zeta.
  pose proof (planar_trace U ws films m0 d0 theta phi h x y outer fuel HP Ht Hh HG) as Q.
  assert (GS : good_start ws m0 d0) by (destruct HG as [[-> G]|[-> G]]; [left|right]; split; auto; lia).
  destruct (single_ray_stack _ _ _ _ _) as [[s'|e]|] eqn:E; [| contradiction | congruence].
  destruct Q as (fin & Q1 & Q2 & _). rewrite T in Q1. injection Q1 as ->.
  destruct (planar_ending (u_K U) ws (u_nks U) films m0 d0 theta (dr_rnd (u_draws U)) (st_stack _ _ (pl_struct _ _ _ _ _ HP)) GS outer _ E)
    as (st & k & Es & P1 & P2 & P3 & P4). injection Es as <-.
  exists fin, k. split; [reflexivity|]. split; [|rewrite Q2; auto].
  apply (planar_traced U ws films m0 d0 theta phi h x y outer fuel fin HP Ht Hh); auto. now apply start_up.
Qed.
Print Assumptions C163_planar_light.

(* the run ends as soon as every layer absorbs (C78), so the hypothesis is met; here: straight through, and kept by a film *)
Example C163_example : exists U fin, planar_structure U [1] [Bare PolU; Bare PolU] 0 0 /\
  trace_stack 2 3 U (start_vector 1 0 0) (1 / 3) (1 / 4) 0 1 = Some (Ok fin) /\ s_theta (x_st fin) = Some (PI - 0) /\ s_I (x_st fin) = exp (-1).
Proof.
  destruct (demo_trace (1 / 3) (1 / 4)) as (s0 & s1 & fin & HP & T & I & Th & _). eexists. exists fin. split; [exact HP|]. split; [exact T|].
  rewrite Th, Rminus_0_r. auto.
Qed.

Example C163_film_example : exists U fin, planar_structure U [1] [coat; Bare PolU] 0 0 /\
  trace_stack 1 3 U (start_vector 1 0 0) (1 / 3) (1 / 4) 0 1 = Some (Ok fin) /\ s_theta (x_st fin) = None /\ s_Aint (x_st fin) = [3 / 7; 4 / 7].
Proof.
  destruct (demo_planar coat (or_intror eq_refl)) as (s0 & s1 & HP). set (U := demo _ _ s0 s1) in *. pose proof PI_RGT_0 as PP.
  pose proof (planar_trace U [1] [coat; Bare PolU] 0 1 0 0 1 (1 / 3) (1 / 4) 1 0 HP ltac:(lra) ltac:(lra) ltac:(left; cbn; lia)) as Q.
  assert (O : planar_out (u_nks U) [coat; Bare PolU] 0 1 0 (dr_rnd (u_draws U)) 0 = OAbsorbed [3 / 10; 4 / 10]).
  { unfold planar_out. cbn [planar_at]. unfold next_fate. change (film_ahead _ _ _) with coat. cbn [coat meets_film te_R te_T te_A].
    change (dr_rnd (u_draws U) 0%nat) with (9 / 10). rewrite (proj2 (Rleb_false _ _)) by lra. rewrite (proj2 (Rleb_false _ _)) by lra. reflexivity. }
  unfold single_ray_stack in Q. cbn [srun] in Q. rewrite O in Q. unfold sstep in Q. change (u_K U) with ex_K in Q. cbn [ex_K padded sstart s_surf s_mat s_dir k_surfaces k_alphas Z.eqb Pos.eqb] in Q.
  match type of Q with context [rbind (py_pos 2 0)] => change (py_pos 2 0) with (Ok 0%nat) in Q end. cbn [rbind] in Q.
  change (py_pos (length [0; 1; 0]) 0) with (Ok 0%nat) in Q. cbn [rbind] in Q.
  change (py_pos (length [0; 1; 0]) (0 + 1)) with (Ok 1%nat) in Q. cbn [rbind] in Q.
  destruct Q as (fin & Q1 & Q2 & _). exists U, fin. split; [exact HP|]. split; [exact Q1|]. rewrite Q2. cbn [s_theta s_Aint s_I map rsum].
  split; [reflexivity|]. change (s_I (sstart ex_K 0 1)) with 1. f_equal; [field|]. f_equal. field.
Qed.

(* ---------- C164 ---------- *)

(* rt_structure built from flat textures: the surfaces it makes are the level ones of C162 and C163, at the depths of the
   layers (widths in m, depths in um), whatever is refreshed *)
Theorem C164_built_planar : forall M S textures (materials : list M) widths inc trn, length textures = Datatypes.S (length widths) ->
  (forall o, In o textures -> exists s a b, surface_at S o = Some s /\ 0 < a /\ 0 < b /\ flat_surface 0 a b s) ->
  exists S' surfaces cw, new_rt_structure S textures materials widths inc trn = Ok (S', surfaces, inc :: materials ++ [trn], cw) /\
    length surfaces = length textures /\
    forall i, (i <= length widths)%nat -> exists q s', nth_error surfaces i = Some q /\ surface_at S' q = Some s' /\
      forall seen hs dec, level_face (- depth (map (fun w => 10 ^ 6 * w) widths) i) (facing_of s' seen hs dec).
Proof. exact built_level. Qed.
Print Assumptions C164_built_planar.

(* planar_surface() is such a texture, however Delaunay splits the square *)
Theorem C164_planar_surface : forall del size, 0 < size ->
  In (del (map (fun v => (vx v, vy v)) (planar_points size))) [ [(0, 2, 1); (0, 1, 3)]; [(0, 2, 3); (2, 1, 3)] ]%nat ->
  exists s, mk_surface del (planar_points size) None None = Ok s /\ flat_surface 0 size size s.
Proof. exact planar_flat. Qed.
Print Assumptions C164_planar_surface.

Example C164_example : exists S s, surface_at S 0%nat = Some s /\ flat_surface 0 1 1 s /\
  length [0; 0]%nat = Datatypes.S (length [1 / 10 ^ 6]) /\ depth (map (fun w => 10 ^ 6 * w) [1 / 10 ^ 6]) 1 = 1.
Proof.
  destruct a_flat_surface as [s [E F]]. exists {| arrays := [su_pts s]; objects := [{| so_pts := 0; so_rest := s |}] |}, s.
  split; [unfold surface_at; cbn; destruct s; reflexivity|]. split; [exact F|]. split; [reflexivity|]. unfold depth. cbn [map firstn rsum]. lra.
Qed.
