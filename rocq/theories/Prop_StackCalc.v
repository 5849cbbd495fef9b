(* C173-C176: rt_structure.calculate from the textures, materials and options to R, T and A. *)
From Coq Require Import Reals List Bool ZArith Lia Lra.
From Verif Require Import Base Lib Model_Angles Model_Optics Model_OpticsC Model_RayIface Model_RayStack Model_Surface Model_RTStruct Model_Trace
  Model_StackRay Model_StackCalc
  Spec_Optics Spec_OpticsC Spec_RayIface Spec_RayStack Spec_Surface Spec_RTStruct Spec_Trace Spec_StackRay Spec_StackCalc
  Proof_Optics Proof_OpticsC Proof_OpticsC2 Proof_RayStack Proof_RTStruct Proof_RTStruct3 Proof_StackRay Proof_StackFlat Proof_StackPlanar
  Proof_StackCalc Proof_StackCalc2 Proof_StackCalc3 Proof_StackCalc4 Prop_RayStack Prop_Trace Prop_StackRay.
Import ListNotations.
Open Scope R_scope.

(* ---------- the example: 1 um of an absorber between planar surfaces ---------- *)

Definition eg_mats : list material := [fun _ => mkc 2 1].
Definition eg_inc : material := fun _ => creal 1.
Definition eg_trn : material := fun _ => mkc 1 1.
Definition eg_widths : list R := [1 / 10 ^ 6].
(* one unpolarised ray at normal incidence; 1 um *)
Definition eg_opts (rs : bool) (phi : R) : rt_options :=
  {| c_wl := 1 / 10 ^ 6; c_theta := 0; c_phi := phi; c_thresh := 1 / 10; c_dz := 1 / 10 ^ 9; c_pol := PolU; c_nx := 1; c_ny := 1; c_nrays := 1;
     c_xlim := None; c_ylim := None; c_random_pos := false; c_randomize := rs; c_periodic := None; c_mat := None; c_dir := None |}.
Definition eg_options : rt_options := eg_opts true 0.
Definition eg_draws : rt_draws :=
  {| w_x := fun _ => 0; w_y := fun _ => 0; w_ray := fun _ => {| dr_rnd := fun _ => 9 / 10; dr_xy := fun _ _ => (0, 0); dr_uv := fun _ => (0, 0) |};
     w_seen := fun _ _ _ => 0%nat; w_hs := fun _ _ => 0 |}.
Definition eg_tables : list (option (Z -> R -> table_entry)) := [None; None].
(* the same with two layers on the first surface *)
Definition eg_entry : table_entry := {| te_R := 1 / 10; te_T := 2 / 10; te_A := [3 / 10; 4 / 10] |}.
Definition eg_coated : list (option (Z -> R -> table_entry)) := [Some (fun _ _ => eg_entry); None].

Lemma zs_zero (p : list vec) : (forall v, In v p -> vz v = 0) -> lmax (zs_of p) = 0.
Proof.
  intros H. unfold zs_of. destruct p as [|v p]; [reflexivity|]. cbn [map lmax]. rewrite (H v (or_introl eq_refl)).
  assert (Q : forall l, (forall z, In z l -> z = 0) -> fold_left Rmax l 0 = 0).
  { induction l as [|z l IH]; intros Hl; [reflexivity|]. cbn [fold_left]. rewrite (Hl z (or_introl eq_refl)), Rmax_left by lra. apply IH. intros; apply Hl; now right. }
  apply Q. intros z Hz. apply in_map_iff in Hz. destruct Hz as (u & <- & Hu). apply H. now right.
Qed.

(* the first surface of a planar structure is at height 0 *)
Lemma planar_high S textures materials widths inc trn surfs s : built_structure S textures materials widths inc trn surfs ->
  (forall q, In q textures -> exists s a b, surface_at S q = Some s /\ 0 < a /\ 0 < b /\ flat_surface 0 a b s) ->
  nth_error surfs 0 = Some s -> lmax (zs_of (su_pts s)) = 0.
Proof.
  intros HB HT Hs. destruct (bs_new _ _ _ _ _ _ _ HB) as (S' & su & cw & E & Rd).
  destruct (structure_ok S textures materials widths inc trn) as (S2 & su2 & cw2 & E2 & L & _ & B).
  - intros o Ho. destruct (HT o Ho) as (x & _ & _ & Hx & _). eauto.
  - rewrite (bs_textures _ _ _ _ _ _ _ HB). lia.
  - rewrite E in E2. injection E2 as <- <- <-. pose proof (bs_textures _ _ _ _ _ _ _ HB) as LT.
    destruct (nth_error textures 0) as [q0|] eqn:Eq; [|apply nth_error_None in Eq; lia].
    destruct (B 0%nat q0 Eq) as (q & s0 & s' & H1 & H2 & H3 & H4). destruct (read_all_nth _ _ _ 0 q Rd H1) as (s2 & Es & En).
    rewrite Hs in En. injection En as <-. rewrite H3 in Es. injection Es as <-.
    destruct (HT q0 (nth_error_In _ _ Eq)) as (s3 & a & b & Es & Ha & Hb & F). rewrite H2 in Es. injection Es as <-.
    apply zs_zero. intros v Hv. destruct H4 as (L1 & _). rewrite L1 in Hv. apply in_map_iff in Hv. destruct Hv as (u & <- & Hu). cbn [vz].
    destruct F as (del & p & Em & _ & Z & _). unfold mk_surface in Em. destruct (argmax _); [|discriminate]. cbn [rbind] in Em.
    destruct (find_zcov p); [|discriminate]. cbn [rbind] in Em. injection Em as <-. cbn [su_pts] in Hu. rewrite (Z u Hu). cbn [firstn rsum depth]. unfold depth. cbn [firstn rsum]. ring.
Qed.

Lemma eg_media m : In m (eg_inc :: eg_mats ++ [eg_trn]) -> optical_medium (m (c_wl eg_options)).
Proof. intros [<-|[<-|[<-|[]]]]; split; cbn [eg_inc eg_trn re im creal]; lra. Qed.

(* planar_surface() twice, as both textures *)
Lemma eg_structure_of size rs phi tables : 0 < size -> tables = eg_tables \/ tables = eg_coated -> exists S surfs, built_structure S [0; 0]%nat eg_mats eg_widths eg_inc eg_trn surfs /\
  sound_options (eg_inc :: eg_mats ++ [eg_trn]) eg_widths tables surfs (eg_opts rs phi) eg_draws /\
  flat_structure S [0; 0]%nat eg_widths (eg_inc :: eg_mats ++ [eg_trn]) tables (eg_opts rs phi) eg_draws.
Proof.
  intros Hsize Htab. assert (Hent : forall ent, In (Some ent) tables -> ent = (fun _ _ => eg_entry)).
  { intros ent H. destruct Htab as [-> | ->]; destruct H as [H|[H|[]]]; try discriminate. now injection H as <-. } destruct (planar_flat split1 size Hsize (or_introl eq_refl)) as [s [E F]]. pose proof PI_RGT_0 as PP.
  set (S := {| arrays := [su_pts s]; objects := [{| so_pts := 0; so_rest := s |}] |}).
  assert (SA : surface_at S 0%nat = Some s). { unfold surface_at, S. cbn [objects arrays nth_error so_pts so_rest]. f_equal. destruct s; reflexivity. }
  assert (HT : forall q, In q [0; 0]%nat -> exists s a b, surface_at S q = Some s /\ 0 < a /\ 0 < b /\ flat_surface 0 a b s).
  { intros q Hq. destruct Hq as [<-|[<-|[]]]; exists s, size, size; split; auto. }
  destruct (built_level material S [0; 0]%nat eg_mats eg_widths eg_inc eg_trn eq_refl HT) as (S' & su & cw & N & L & B).
  destruct (B 0%nat) as (q0 & s0 & Q0 & A0 & _); [cbn; lia|]. destruct (B 1%nat) as (q1 & s1 & Q1 & A1 & _); [cbn; lia|].
  assert (Esu : su = [q0; q1]).
  { destruct su as [|a [|b [|c su]]]; try discriminate. cbn [nth_error] in Q0, Q1. injection Q0 as ->. injection Q1 as ->. reflexivity. }
  assert (HB : built_structure S [0; 0]%nat eg_mats eg_widths eg_inc eg_trn [s0; s1]).
  { constructor; try reflexivity.
    - exists S', su, cw. split; [exact N|]. rewrite Esu. cbn [read_all]. rewrite A0, A1. reflexivity.
    - intros x [<-|[]]. lra. }
  exists S, [s0; s1]. split; [exact HB|]. split.
  - constructor; try (cbn [eg_opts c_wl c_thresh c_theta c_nx c_ny c_nrays]; first [lra | lia]).
    + left. cbn. lia.
    + intros m Hm. exact (eg_media m Hm).
    + destruct Htab as [-> | ->]; reflexivity.
    + intros ent H side th _. rewrite (Hent ent H). cbn [eg_entry te_A rsum]. split; [|lra]. intros a [<-|[<-|[]]]; lra.
    + intros s' Hs. rewrite (planar_high _ _ _ _ _ _ _ s' HB HT Hs). lra.
    + intros k n. cbn. lra.
  - constructor.
    + exact HT.
    + intros ent side th H. rewrite (Hent ent H). cbn [eg_entry te_R te_T]. lra.
    + intros m d ent _ _ Hm _ Hle. exfalso. cbn [eg_opts c_theta] in Hle. rewrite sin_0, Rmult_0_r in Hle. cbn [eg_widths length] in Hm.
      assert (C : (m + d = 0 \/ m + d = 1 \/ m + d = 2)%Z) by lia. revert Hle. unfold index_of, nk_of.
      destruct C as [-> | [-> | ->]]; unfold Z.to_nat, Pos.to_nat; cbn [Pos.iter_op Nat.add nth media map app eg_inc eg_mats eg_trn re creal]; lra.
    + right. reflexivity.
    + left. reflexivity.
    + intros x [<-|[]]. lra.
    + cbn. lia.
    + intros m Hm. cbn [eg_opts c_theta]. rewrite sin_0, Rmult_0_r. destruct (eg_media m Hm) as [P _]. change (c_wl eg_options) with (c_wl (eg_opts rs phi)) in P. cbn [eg_opts c_wl] in *. lra.
    + intros k n. cbn. lra.
Qed.

Lemma eg_structure : exists S surfs, built_structure S [0; 0]%nat eg_mats eg_widths eg_inc eg_trn surfs /\
  sound_options (eg_inc :: eg_mats ++ [eg_trn]) eg_widths eg_tables surfs eg_options eg_draws /\
  flat_structure S [0; 0]%nat eg_widths (eg_inc :: eg_mats ++ [eg_trn]) eg_tables eg_options eg_draws.
Proof. apply (eg_structure_of 1); [lra|auto]. Qed.

(* ---------- C173 ---------- *)

(* whatever the textures: calculate either is still tracing or accounts for all the light, up to the threshold at which rays
   are given up *)
Theorem C173_energy : forall S textures materials widths inc trn surfs tables o w outer fuel out,
  let mats := inc :: materials ++ [trn] in
  built_structure S textures materials widths inc trn surfs -> sound_options mats widths tables surfs o w ->
  none_level fuel surfs mats widths tables o w -> calculate outer fuel surfs mats widths tables o w = Some out ->
  exists t rays, out = Ok (t, rays) /\ (c_nrays o <= length rays)%nat /\
    1 - c_thresh o <= t_R t + t_T t + rsum (t_A t) + rsum (t_Aint t) <= 1 /\
    0 <= t_R0 t <= t_R t /\ 0 <= t_T t /\ (forall a, In a (t_A t) -> 0 <= a) /\ (forall a, In a (t_Aint t) -> 0 <= a) /\
    (forall fin, In fin rays -> unit (x_dir fin)).
Proof.
  intros S textures materials widths inc trn surfs tables o w outer fuel out mats HB HO HL HC.
  set (ws := map (fun x => 10 ^ 6 * x) widths). set (U := calc_setup surfs mats widths tables o w).
  assert (St : forall k, structure_of (U k) ws) by (intros k; exact (calc_structure S textures materials widths inc trn surfs tables o w HB HO k)).
  pose proof (start_good materials widths inc trn surfs tables o w HO) as GS. fold ws in GS.
  assert (RAY : forall s k x y r, nth_error surfs 0 = Some s -> ray_from materials widths inc trn surfs tables o w outer fuel k s x y = Some r ->
    exists fin, r = Ok fin /\ shot_through (U k) ws fin /\ unit (x_dir fin)).
  { intros s k x y r Hs T. unfold ray_from in T. fold mats in T. fold (U k) in T.
    pose proof (start_up' materials widths inc trn surfs tables o w HO s Hs) as V.
    destruct (C161_start (U k) ws _ x y _ _ (St k) GS V) as [st Est].
    assert (NL : forall st, fstart (U k) (start_vector (lmax (zs_of (su_pts s))) (c_theta o) (c_phi o)) x y (start_mat o) (start_dir o) = Ok st -> never_level fuel (U k) st)
      by (intros st' E'; exact (HL s k x y st' Hs E')).
    destruct (C161_ray (U k) ws st outer fuel _ x y _ _ r (St k) GS V Est (NL st Est) T) as (fin & -> & _ & Un & _).
    exists fin. split; [reflexivity|]. split; [|exact Un].
    exists outer, fuel, (start_vector (lmax (zs_of (su_pts s))) (c_theta o) (c_phi o)), x, y, (start_mat o), (start_dir o). auto. }
  destruct (calculate_runs S textures materials widths inc trn surfs tables o w HB HO outer fuel out) as (s & rays & Hs & Eo & LR & Ln & HR).
  { intros s k x y e Hs Er. destruct (RAY s k x y _ Hs Er) as (fin & Ef & _). discriminate. }
  { exact HC. }
  assert (HRs : forall fin, In fin rays -> exists k, shot_through (U k) ws fin /\ unit (x_dir fin)).
  { intros fin Hf. apply In_nth_error in Hf. destruct Hf as [k Hk]. destruct (HR k fin Hk) as (x & y & T).
    destruct (RAY s k x y _ Hs T) as (fin' & Ef & Q). injection Ef as <-. eauto. }
  assert (NE : rays <> []). { intros ->. cbn [length] in Ln. pose proof (op_rays _ _ _ _ _ _ HO). lia. }
  destruct (C161_totals (calc_stack mats widths (length surfs) o) ws rays NE (st_stack _ _ (St 0%nat))) as (T1 & T2 & T3 & T4 & T5).
  { intros st Hst. destruct (HRs st Hst) as (k & Sh & _). exists (U k). split; [reflexivity|]. split; [apply St|exact Sh]. }
  eexists. exists rays. split; [exact Eo|]. split; [exact Ln|]. split; [exact T1|]. split; [exact T2|]. split; [exact T3|]. split; [exact T4|]. split; [exact T5|].
  intros fin Hf. destruct (HRs fin Hf) as (k & _ & Un). exact Un.
Qed.
Print Assumptions C173_energy.

(* in planar structures no ray is ever level *)
Theorem C173_planar_not_level : forall S textures materials widths inc trn surfs tables o w fuel,
  let mats := inc :: materials ++ [trn] in
  built_structure S textures materials widths inc trn surfs -> sound_options mats widths tables surfs o w ->
  flat_structure S textures widths mats tables o w -> none_level (3 + fuel) surfs mats widths tables o w.
Proof.
  intros S textures materials widths inc trn surfs tables o w fuel mats HB HO HF s k x y st Hs U E z Hz.
  pose proof (calc_planar S textures materials widths inc trn surfs tables o w HB HO HF k) as HP. cbv zeta in HP. 
  pose proof (flat_start S textures materials widths inc trn surfs tables o w HO HF) as HG.
  set (ws := map (fun x => 10 ^ 6 * x) widths) in *. change (planar_structure U ws (films_on (c_pol o) tables) (start_mat o) (c_theta o)) in HP.
  destruct (planar_start U ws _ (start_mat o) (start_dir o) (c_theta o) (c_phi o) _ x y HP (op_theta _ _ _ _ _ _ HO) (op_high _ _ _ _ _ _ HO s Hs) HG) as (st' & E' & _ & R).
  rewrite E in E'. injection E' as ->.
  refine (planar_never_level fuel U ws _ (start_mat o) (start_dir o) (c_theta o) _ HP _ (op_theta _ _ _ _ _ _ HO) st' z Hz 0 R).
  destruct HG as [[_ G]|[_ G]]; lia.
Qed.
Print Assumptions C173_planar_not_level.

(* ---------- C174 ---------- *)

Lemma pick_all {A} (d : A) (P : nat -> A -> Prop) : forall n, (forall k, (k < n)%nat -> exists a, P k a) -> exists e, forall k, (k < n)%nat -> P k (e k).
Proof.
  induction n as [|n IH]; intros H; [exists (fun _ => d); lia|]. destruct IH as [e He]; [intros; apply H; lia|]. destruct (H n) as [a Ha]; [lia|].
  exists (fun k => if Nat.eqb k n then a else e k). intros k Hk. destruct (Nat.eqb k n) eqn:E; [apply Nat.eqb_eq in E; now subst|]. apply Nat.eqb_neq in E. apply He. lia.
Qed.

(* planar structures, bare or with lookup tables: which media a ray crosses is told by Snell's and Fresnel's laws, the tables
   and its random numbers; it ends where it leaves, where the layers of a table take it or where Beer-Lambert takes it below
   the threshold (a place told by e, which C174_place says is the only one); R, T, R0 and A are the averages of what the rays
   carry out and lose in the layers and at the surfaces *)
Theorem C174_flat : forall S textures materials widths inc trn surfs tables o w outer fuel out,
  let mats := inc :: materials ++ [trn] in
  built_structure S textures materials widths inc trn surfs -> sound_options mats widths tables surfs o w ->
  flat_structure S textures widths mats tables o w -> calculate outer (3 + fuel) surfs mats widths tables o w = Some out ->
  exists t rays e, out = Ok (t, rays) /\
    let N := length rays in
    let psi := snell (media mats o) (start_mat o) (c_theta o) in
    let share k := si_power mats widths tables o w k (fst (e k)) / INR N in
    N = (n_reps_of (c_nrays o) (c_nx o) (c_ny o) * c_nx o * c_ny o)%nat /\ (c_nrays o <= N)%nat /\
    (forall k fin, nth_error rays k = Some fin -> let n := fst (e k) in let f := snd (e k) in
       ends_at mats widths tables o w k n f /\
       s_theta (x_st fin) = match f with Front => Some (psi 0%Z) | Rear => Some (PI - psi (Z.of_nat (length widths) + 1)%Z) | _ => None end /\
       s_I (x_st fin) = match f with Film _ => 0 | _ => si_power mats widths tables o w k (crossed n f) end /\
       s_Aint (x_st fin) = match f with Film A => map (fun a => si_power mats widths tables o w k n * a / rsum A) A | _ => [] end /\
       (forall i, (i < Datatypes.S (Datatypes.S (length widths)))%nat -> nth i (s_A (x_st fin)) 0 = si_lost_in mats widths tables o w k i (crossed n f)) /\
       x_nint fin = x_checks fin /\
       (forall th, s_theta (x_st fin) = Some th -> x_dir fin = pointing th (c_phi o + PI))) /\
    t_R t = rsum (map (fun k => match snd (e k) with Front => share k | _ => 0 end) (seq 0 N)) /\
    t_T t = rsum (map (fun k => match snd (e k) with Rear => share k | _ => 0 end) (seq 0 N)) /\
    t_R0 t = rsum (map (fun k => match snd (e k) with Front => if Nat.eqb (fst (e k)) 0 then share k else 0 | _ => 0 end) (seq 0 N)) /\
    length (t_A t) = length widths /\
    (forall i, (i < length widths)%nat -> nth i (t_A t) 0 =
       rsum (map (fun k => si_lost_in mats widths tables o w k (Datatypes.S i) (crossed (fst (e k)) (snd (e k))) / INR N) (seq 0 N))) /\
    length (t_Aint t) = Datatypes.S (length widths) /\
    (forall i, (i <= length widths)%nat -> nth i (t_Aint t) 0 = rsum (map (fun k => match snd (e k) with
       | Film _ => if Z.eqb (surface_ahead (fst (route mats tables o w k (fst (e k)))) (snd (route mats tables o w k (fst (e k))))) (Z.of_nat i) then share k else 0
       | _ => 0 end) (seq 0 N))).
Proof.
  intros S textures materials widths inc trn surfs tables o w outer fuel out mats HB HO HF HC.
  set (ws := map (fun x => 10 ^ 6 * x) widths).
  destruct (calculate_runs S textures materials widths inc trn surfs tables o w HB HO outer (3 + fuel) out) as (s & rays & Hs & Eo & LR & Ln & HR).
  { intros s k x y e Hs Er. unfold ray_from in Er. set (U := calc_setup _ _ _ _ _ _ _) in Er.
    pose proof (calc_planar S textures materials widths inc trn surfs tables o w HB HO HF k) as HP.
    change (planar_structure U ws (films_on (c_pol o) tables) (start_mat o) (c_theta o)) in HP.
    pose proof (flat_start S textures materials widths inc trn surfs tables o w HO HF) as HG.
    pose proof (planar_trace U ws _ (start_mat o) (start_dir o) (c_theta o) (c_phi o) _ x y outer fuel HP (op_theta _ _ _ _ _ _ HO) (op_high _ _ _ _ _ _ HO s Hs) HG) as Q.
    destruct (single_ray_stack _ _ _ _ _) as [[s'|e']|]; [|contradiction|congruence]. destruct Q as (fin & Q & _). rewrite Er in Q. discriminate. }
  { exact HC. }
  destruct (pick_all (0%nat, Bulk) (fun k p => forall fin, nth_error rays k = Some fin ->
     reported materials widths inc trn surfs tables o w k fin (fst p) (snd p)) (length rays)) as [e He].
  { intros k Hk. destruct (nth_error rays k) as [fin|] eqn:Ek; [|apply nth_error_None in Ek; lia]. destruct (HR k fin Ek) as (x & y & T).
    destruct (ray_reported S textures materials widths inc trn surfs tables o w HB HO HF outer fuel k s x y fin Hs T) as (n & f & R).
    exists (n, f). intros fin' E'. injection E' as <-. exact R. }
  assert (He' : forall k fin, nth_error rays k = Some fin -> reported materials widths inc trn surfs tables o w k fin (fst (e k)) (snd (e k))).
  { intros k fin Hk. apply He; auto. apply nth_error_Some. congruence. }
  assert (HN : (0 < length rays)%nat) by (pose proof (op_rays _ _ _ _ _ _ HO); lia).
  eexists. exists rays, e. split; [exact Eo|]. cbv zeta. split; [exact LR|]. split; [exact Ln|]. split.
  - intros k fin Hk. destruct (He' k fin Hk) as (_ & R1 & R2 & R3 & _ & R7 & _ & _ & R4 & R5 & R6). exact (conj R1 (conj R2 (conj R3 (conj R7 (conj R4 (conj R5 R6)))))).
  - exact (flat_totals S textures materials widths inc trn surfs tables o w HB HO rays e HN He').
Qed.
Print Assumptions C174_flat.

(* there is one place at most where a ray ends *)
Theorem C174_place : forall mats widths tables o w k n f n' f', ends_at mats widths tables o w k n f -> ends_at mats widths tables o w k n' f' -> n = n' /\ f = f'.
Proof. exact ends_unique. Qed.
Print Assumptions C174_place.

(* ---------- C175 ---------- *)

(* planar structures all of whose layers absorb: the tracing ends.  c is the least absorption of a single perpendicular pass *)
Theorem C175_ends : forall S textures materials widths inc trn surfs tables o w c outer fuel,
  let mats := inc :: materials ++ [trn] in
  built_structure S textures materials widths inc trn surfs -> sound_options mats widths tables surfs o w ->
  flat_structure S textures widths mats tables o w ->
  0 < c -> (forall i, (i < length widths)%nat -> c <= 4 * PI * im (nth i materials inc (c_wl o)) / c_wl o * nth i widths 0) ->
  (1 <= outer)%nat -> - ln (c_thresh o) < INR outer * c ->
  exists t rays, calculate outer (3 + fuel) surfs mats widths tables o w = Some (Ok (t, rays)).
Proof.
  intros S textures materials widths inc trn surfs tables o w c outer fuel mats HB HO HF Hc HA Hn HT.
  destruct (flat_ends S textures materials widths inc trn surfs tables o w HB HO HF c outer fuel Hc HA Hn HT) as [out E]. fold mats in E.
  destruct (C174_flat S textures materials widths inc trn surfs tables o w outer fuel out HB HO HF E) as (t & rays & e & -> & _). eauto.
Qed.
Print Assumptions C175_ends.

Lemma ln_tenth : - ln (1 / 10) < INR 1 * 4.
Proof.
  replace (- ln (1 / 10)) with (ln 10) by (rewrite <- ln_Rinv by lra; f_equal; field). cbn [INR]. rewrite Rmult_1_l.
  assert (E : 10 < exp 4).
  { pose proof (exp_ineq1 1 ltac:(lra)) as X. replace 4 with (1 + 1 + 1 + 1) by ring. rewrite !exp_plus. set (y := exp 1) in *. clearbody y. assert (Y : 4 < y * y) by nra. replace (y * y * y * y) with ((y * y) * (y * y)) by ring. nra. }
  rewrite <- (ln_exp 4). apply ln_increasing; lra.
Qed.

Lemma eg_run_of size rs phi tables fuel : 0 < size -> tables = eg_tables \/ tables = eg_coated ->
  exists S surfs t rays, built_structure S [0; 0]%nat eg_mats eg_widths eg_inc eg_trn surfs /\
  sound_options (eg_inc :: eg_mats ++ [eg_trn]) eg_widths tables surfs (eg_opts rs phi) eg_draws /\
  flat_structure S [0; 0]%nat eg_widths (eg_inc :: eg_mats ++ [eg_trn]) tables (eg_opts rs phi) eg_draws /\
  calculate 1 (3 + fuel) surfs (eg_inc :: eg_mats ++ [eg_trn]) eg_widths tables (eg_opts rs phi) eg_draws = Some (Ok (t, rays)).
Proof.
  intros Hs Ht. destruct (eg_structure_of size rs phi tables Hs Ht) as (S & surfs & HB & HO & HF).
  destruct (C175_ends S _ _ _ _ _ surfs tables (eg_opts rs phi) eg_draws 4 1 fuel HB HO HF) as (t & rays & E).
  - lra.
  - intros i Hi. cbn [eg_widths length] in Hi. assert (i = 0%nat) as -> by lia. cbn [eg_mats eg_widths nth eg_opts c_wl im].
    replace (4 * PI * 1 / (1 / 10 ^ 6) * (1 / 10 ^ 6)) with (4 * PI) by (field; lra). pose proof (PI2_3_2). unfold PI2 in *. lra.
  - lia.
  - cbn [eg_opts c_thresh]. exact ln_tenth.
  - exists S, surfs, t, rays. auto.
Qed.

Lemma eg_run fuel : exists S surfs t rays, built_structure S [0; 0]%nat eg_mats eg_widths eg_inc eg_trn surfs /\
  sound_options (eg_inc :: eg_mats ++ [eg_trn]) eg_widths eg_tables surfs eg_options eg_draws /\
  flat_structure S [0; 0]%nat eg_widths (eg_inc :: eg_mats ++ [eg_trn]) eg_tables eg_options eg_draws /\
  calculate 1 (3 + fuel) surfs (eg_inc :: eg_mats ++ [eg_trn]) eg_widths eg_tables eg_options eg_draws = Some (Ok (t, rays)).
Proof. apply (eg_run_of 1); [lra|auto]. Qed.

Example C175_example : exists S surfs, built_structure S [0; 0]%nat eg_mats eg_widths eg_inc eg_trn surfs /\
  sound_options (eg_inc :: eg_mats ++ [eg_trn]) eg_widths eg_tables surfs eg_options eg_draws /\
  flat_structure S [0; 0]%nat eg_widths (eg_inc :: eg_mats ++ [eg_trn]) eg_tables eg_options eg_draws /\
  (1 <= 1)%nat /\ - ln (c_thresh eg_options) < INR 1 * 4.
Proof. destruct eg_structure as (S & surfs & HB & HO & HF). exists S, surfs. repeat (split; [assumption || lia|]). exact ln_tenth. Qed.

Example C173_example : exists S surfs out, built_structure S [0; 0]%nat eg_mats eg_widths eg_inc eg_trn surfs /\
  sound_options (eg_inc :: eg_mats ++ [eg_trn]) eg_widths eg_tables surfs eg_options eg_draws /\
  none_level 3 surfs (eg_inc :: eg_mats ++ [eg_trn]) eg_widths eg_tables eg_options eg_draws /\
  calculate 1 3 surfs (eg_inc :: eg_mats ++ [eg_trn]) eg_widths eg_tables eg_options eg_draws = Some out.
Proof.
  destruct (eg_run 0) as (S & surfs & t & rays & HB & HO & HF & E). exists S, surfs, (Ok (t, rays)). split; [exact HB|]. split; [exact HO|].
  split; [exact (C173_planar_not_level S _ _ _ _ _ surfs _ _ _ 0 HB HO HF)|exact E].
Qed.

(* the ray of the example crosses the first surface (its number is 9/10, the reflectance 1/5) and is given up in the layer *)
Example C174_example : exists S surfs t rays fin, built_structure S [0; 0]%nat eg_mats eg_widths eg_inc eg_trn surfs /\
  calculate 1 3 surfs (eg_inc :: eg_mats ++ [eg_trn]) eg_widths eg_tables eg_options eg_draws = Some (Ok (t, rays)) /\
  rays = [fin] /\ ends_at (eg_inc :: eg_mats ++ [eg_trn]) eg_widths eg_tables eg_options eg_draws 0 0 Bulk /\ s_I (x_st fin) = exp (- (4 * PI)) /\
  t_R t = 0 /\ nth 0 (t_A t) 0 = 1 - exp (- (4 * PI)).
Proof.
  destruct (eg_run 0) as (S & surfs & t & rays & HB & HO & HF & E). pose proof PI_RGT_0 as PP.
  destruct (C174_flat S _ _ _ _ _ surfs _ _ _ 1 0 _ HB HO HF E) as (t' & rays' & e & Eo & Q). injection Eo as <- <-. cbv zeta in Q.
  destruct Q as (LN & _ & QR & R1 & _ & _ & _ & QA & _).
  set (mats := eg_inc :: eg_mats ++ [eg_trn]) in *.
  assert (L1 : length rays = 1%nat). { rewrite LN. cbn [eg_options eg_opts c_nx c_ny c_nrays]. unfold n_reps_of. rewrite (Zceil_unique _ 1) by (cbn [Nat.mul Nat.add INR]; lra). reflexivity. }
  destruct rays as [|fin [|? ?]]; try discriminate. clear L1.
  assert (SN : forall m, snell (media mats eg_options) (start_mat eg_options) (c_theta eg_options) m = 0).
  { intros m. unfold snell. cbn [eg_options eg_opts c_theta]. rewrite sin_0, Rmult_0_r. unfold Rdiv. rewrite Rmult_0_l. apply asin_0. }
  assert (RT : route mats eg_tables eg_options eg_draws 0 1 = (1, 1)%Z).
  { unfold route. cbn [planar_at]. unfold next_fate. rewrite SN. change (film_ahead _ _ _) with (Bare PolU). cbn [meets_film].
    change (nk_of (media mats eg_options) (start_mat eg_options)) with (creal 1).
    change (nk_of (media mats eg_options) (start_mat eg_options + start_dir eg_options)) with (mkc 2 1).
    change (dr_rnd (w_ray eg_draws 0) 0%nat) with (9 / 10).
    assert (F : Rleb (9 / 10) (fresnel_Rc (creal 1) (mkc 2 1) 0 PolU) = false).
    { apply Rleb_false. destruct (fresnel_Rc_cases (creal 1) (mkc 2 1) 0 PolU) as [_ FQ]; cbn [re creal]; try lra.
      rewrite FQ by (rewrite sin_0; cbn [re creal]; lra). unfold creal. rewrite calc_Rc_normal by lra. lra. }
    rewrite F. reflexivity. }
  assert (P1 : si_power mats eg_widths eg_tables eg_options eg_draws 0 1 = exp (- (4 * PI))).
  { unfold si_power. cbn [seq map rsum]. rewrite RT. cbn [fst]. unfold si_loss. rewrite SN, cos_0.
    change (nk_of (media mats eg_options) 1) with (mkc 2 1). change (nth (Z.to_nat 1) (0 :: eg_widths ++ [0]) 0) with (1 / 10 ^ 6).
    cbn [im eg_options eg_opts c_wl]. f_equal. f_equal. field. }
  assert (EB : ends_at mats eg_widths eg_tables eg_options eg_draws 0 0 Bulk).
  { split; [intros; lia|]. split.
    { intros j A Hj. assert (j = 0%nat) as -> by lia. unfold fate_of. change (route mats eg_tables eg_options eg_draws 0 0) with (0, 1)%Z. cbn [fst snd].
      unfold next_fate. change (film_ahead _ _ _) with (Bare PolU). cbn [meets_film]. split; [destruct (Rleb _ _); discriminate|]. intros [_ Q]. discriminate. }
    rewrite RT, P1. cbn [fst eg_widths length eg_options eg_opts c_thresh]. split; [lia|].
    replace (1 / 10) with (exp (ln (1 / 10))) by (apply exp_ln; lra). apply exp_increasing. pose proof ln_tenth as LT. cbn [INR] in LT.
    pose proof PI2_3_2. unfold PI2 in *. lra. }
  destruct (QR 0%nat fin eq_refl) as (En & _ & I & _ & A & _). destruct (C174_place _ _ _ _ _ _ _ _ _ _ En EB) as [E1 E2].
  exists S, surfs, t, [fin], fin. split; [exact HB|]. split; [exact E|]. split; [reflexivity|]. split; [exact EB|].
  rewrite E1, E2 in I. cbn [crossed] in I. split; [rewrite I; exact P1|]. split.
  - rewrite R1. cbn [length seq map rsum]. rewrite E2. ring.
  - rewrite QA by (cbn; lia). cbn [length seq map rsum]. rewrite E1, E2. cbn [crossed INR]. unfold si_lost_in. cbn [seq map rsum]. rewrite RT. cbn [fst].
    change (Z.eqb 1 (Z.of_nat 1)) with true. rewrite P1. unfold si_power. cbn [seq map rsum]. rewrite Ropp_0, exp_0. field.
Qed.

(* with the layers on the first surface the ray ends in them (its number 9/10 is beyond R + T = 3/10) *)
Example C174_coated : exists S surfs t rays fin, built_structure S [0; 0]%nat eg_mats eg_widths eg_inc eg_trn surfs /\
  calculate 1 3 surfs (eg_inc :: eg_mats ++ [eg_trn]) eg_widths eg_coated eg_options eg_draws = Some (Ok (t, rays)) /\
  rays = [fin] /\ ends_at (eg_inc :: eg_mats ++ [eg_trn]) eg_widths eg_coated eg_options eg_draws 0 0 (Film [3 / 10; 4 / 10]) /\ s_I (x_st fin) = 0 /\
  s_Aint (x_st fin) = [3 / 7; 4 / 7] /\ nth 0 (t_Aint t) 0 = 1.
Proof.
  destruct (eg_run_of 1 true 0 eg_coated 0) as (S & surfs & t & rays & HB & HO & HF & E); [lra|auto|].
  destruct (C174_flat S _ _ _ _ _ surfs _ _ _ 1 0 _ HB HO HF E) as (t' & rays' & e & Eo & Q). injection Eo as <- <-. cbv zeta in Q.
  destruct Q as (LN & _ & QR & _ & _ & _ & _ & _ & _ & QI).
  set (mats := eg_inc :: eg_mats ++ [eg_trn]) in *. fold eg_options in *.
  assert (L1 : length rays = 1%nat). { rewrite LN. cbn [eg_options eg_opts c_nx c_ny c_nrays]. unfold n_reps_of. rewrite (Zceil_unique _ 1) by (cbn [Nat.mul Nat.add INR]; lra). reflexivity. }
  destruct rays as [|fin [|? ?]]; try discriminate. clear L1.
  assert (FT : fate_of mats eg_coated eg_options eg_draws 0 0 = Stays [3 / 10; 4 / 10]).
  { unfold fate_of. change (route mats eg_coated eg_options eg_draws 0 0) with (0, 1)%Z. cbn [fst snd]. unfold next_fate.
    change (film_ahead _ _ _) with (Coated (fun _ _ => eg_entry)). cbn [meets_film eg_entry te_R te_T te_A]. change (dr_rnd (w_ray eg_draws 0) 0%nat) with (9 / 10).
    rewrite !(proj2 (Rleb_false _ _)) by lra. reflexivity. }
  assert (EB : ends_at mats eg_widths eg_coated eg_options eg_draws 0 0 (Film [3 / 10; 4 / 10])).
  { split; [intros; lia|]. split; [|exact I]. intros j A Hj. assert (j = 0%nat) as -> by lia. rewrite FT. split.
    - intros Q. injection Q as <-. auto.
    - intros [_ Q]. now injection Q as <-. }
  destruct (QR 0%nat fin eq_refl) as (En & _ & I & AI & _). destruct (C174_place _ _ _ _ _ _ _ _ _ _ En EB) as [E1 E2].
  exists S, surfs, t, [fin], fin. split; [exact HB|]. split; [exact E|]. split; [reflexivity|]. split; [exact EB|].
  rewrite E2 in I, AI. split; [exact I|].
  assert (P0 : si_power mats eg_widths eg_coated eg_options eg_draws 0 0 = 1) by (unfold si_power; cbn [seq map rsum]; now rewrite Ropp_0, exp_0).
  rewrite E1, P0 in AI. split.
  - rewrite AI. cbn [map rsum]. f_equal; [lra|]. f_equal. lra.
  - rewrite QI by lia. cbn [length seq map rsum]. rewrite E1, E2, P0. change (route mats eg_coated eg_options eg_draws 0 0) with (0, 1)%Z. cbn [fst snd INR].
    change (Z.eqb (surface_ahead 0 1) (Z.of_nat 0)) with true. cbv iota. field.
Qed.

(* ---------- C176 ---------- *)

(* planar structures: R, T, R0 and A depend on the indices, widths, tables, angle, polarisation, threshold, starting place and the
   random numbers of the surfaces alone; not on the cells of the textures, where in them the rays start, randomize_surface,
   the azimuth or the periodic option *)
Theorem C176_light_only : forall S textures materials widths inc trn surfs tables o w S' textures' surfs' o' w' outer fuel outer' fuel' t rays t' rays',
  let mats := inc :: materials ++ [trn] in
  built_structure S textures materials widths inc trn surfs -> built_structure S' textures' materials widths inc trn surfs' ->
  sound_options mats widths tables surfs o w -> sound_options mats widths tables surfs' o' w' ->
  flat_structure S textures widths mats tables o w -> flat_structure S' textures' widths mats tables o' w' ->
  c_wl o = c_wl o' -> c_theta o = c_theta o' -> c_pol o = c_pol o' -> c_thresh o = c_thresh o' ->
  start_mat o = start_mat o' -> start_dir o = start_dir o' -> (forall k, dr_rnd (w_ray w k) = dr_rnd (w_ray w' k)) ->
  (n_reps_of (c_nrays o) (c_nx o) (c_ny o) * c_nx o * c_ny o = n_reps_of (c_nrays o') (c_nx o') (c_ny o') * c_nx o' * c_ny o')%nat ->
  calculate outer (3 + fuel) surfs mats widths tables o w = Some (Ok (t, rays)) ->
  calculate outer' (3 + fuel') surfs' mats widths tables o' w' = Some (Ok (t', rays')) ->
  t_R t = t_R t' /\ t_T t = t_T t' /\ t_R0 t = t_R0 t' /\ t_A t = t_A t' /\ t_Aint t = t_Aint t'.
Proof.
  intros S textures materials widths inc trn surfs tables o w S' textures' surfs' o' w' outer fuel outer' fuel' t rays t' rays' mats
    HB HB' HO HO' HF HF' E1 E2 E3 E4 E5 E6 E7 E8 C C'.
  destruct (C174_flat S _ _ _ _ _ surfs _ _ _ _ _ _ HB HO HF C) as (t0 & rays0 & e & Eo & Q). injection Eo as <- <-. cbv zeta in Q.
  destruct (C174_flat S' _ _ _ _ _ surfs' _ _ _ _ _ _ HB' HO' HF' C') as (t0 & rays0 & e' & Eo & Q'). injection Eo as <- <-. cbv zeta in Q'.
  destruct Q as (N1 & _ & Q1 & R1 & R2 & R3 & R4 & R5 & R6 & R7). destruct Q' as (N1' & _ & Q1' & R1' & R2' & R3' & R4' & R5' & R6' & R7').
  assert (RT : forall k n, route mats tables o w k n = route mats tables o' w' k n).
  { intros k n. unfold route, media. rewrite E1, E2, E3, E5, E6, E7. reflexivity. }
  assert (SL : forall m, si_loss mats widths o m = si_loss mats widths o' m).
  { intros m. unfold si_loss, media. rewrite E1, E2, E5. reflexivity. }
  assert (SP : forall k n, si_power mats widths tables o w k n = si_power mats widths tables o' w' k n).
  { intros k n. unfold si_power. f_equal. f_equal. f_equal. apply map_ext. intros j. now rewrite RT, SL. }
  assert (SI : forall k i p, si_lost_in mats widths tables o w k i p = si_lost_in mats widths tables o' w' k i p).
  { intros k i p. unfold si_lost_in. f_equal. apply map_ext. intros j. now rewrite RT, !SP. }
  assert (EA : forall k n f, ends_at mats widths tables o w k n f -> ends_at mats widths tables o' w' k n f).
  { intros k n f (A1 & AF & A2). split; [|split].
    - intros j Hj. destruct (A1 j Hj) as [B1 B2]. rewrite <- RT, <- SP, <- E4. auto.
    - intros j A Hj. unfold fate_of. rewrite <- !RT. unfold media. rewrite <- E1, <- E2, <- E3, <- E5, <- (E7 k). exact (AF j A Hj).
    - destruct f; rewrite <- ?RT; auto. rewrite <- SP, <- E4. auto. }
  assert (LN : length rays = length rays') by congruence.
  assert (EE : forall k, (k < length rays)%nat -> e k = e' k).
  { intros k Hk. destruct (nth_error rays k) as [fin|] eqn:F; [|apply nth_error_None in F; lia].
    destruct (nth_error rays' k) as [fin'|] eqn:F'; [|apply nth_error_None in F'; lia].
    destruct (Q1 k fin F) as (En & _). destruct (Q1' k fin' F') as (En' & _). destruct (C174_place _ _ _ _ _ _ _ _ _ _ (EA _ _ _ En) En') as [G1 G2].
    destruct (e k), (e' k). cbn [fst snd] in *. congruence. }
  assert (Sum : forall f g : nat -> R, (forall k, (k < length rays)%nat -> f k = g k) -> rsum (map f (seq 0 (length rays))) = rsum (map g (seq 0 (length rays')))).
  { intros f g H. rewrite <- LN. f_equal. apply map_ext_in. intros k Hk. apply in_seq in Hk. apply H. lia. }
  split; [rewrite R1, R1'; apply Sum; intros k Hk; now rewrite (EE k Hk), SP, LN|].
  split; [rewrite R2, R2'; apply Sum; intros k Hk; now rewrite (EE k Hk), SP, LN|].
  split; [rewrite R3, R3'; apply Sum; intros k Hk; now rewrite (EE k Hk), SP, LN|].
  split.
  - apply (nth_ext _ _ 0 0); [congruence|]. intros i Hi. rewrite R4 in Hi. rewrite R5, R5' by exact Hi. apply Sum. intros k Hk. now rewrite (EE k Hk), SI, LN.
  - apply (nth_ext _ _ 0 0); [congruence|]. intros i Hi. rewrite R6 in Hi. rewrite R7, R7' by lia. apply Sum. intros k Hk. now rewrite (EE k Hk), RT, SP, LN.
Qed.
Print Assumptions C176_light_only.

(* cells of 1 and of 2 um, the second without randomize_surface and from another side *)
Example C176_example : exists S S' surfs surfs' t t' rays rays',
  built_structure S [0; 0]%nat eg_mats eg_widths eg_inc eg_trn surfs /\ built_structure S' [0; 0]%nat eg_mats eg_widths eg_inc eg_trn surfs' /\
  sound_options (eg_inc :: eg_mats ++ [eg_trn]) eg_widths eg_tables surfs' (eg_opts false 1) eg_draws /\
  flat_structure S' [0; 0]%nat eg_widths (eg_inc :: eg_mats ++ [eg_trn]) eg_tables (eg_opts false 1) eg_draws /\
  calculate 1 3 surfs (eg_inc :: eg_mats ++ [eg_trn]) eg_widths eg_tables eg_options eg_draws = Some (Ok (t, rays)) /\
  calculate 1 3 surfs' (eg_inc :: eg_mats ++ [eg_trn]) eg_widths eg_tables (eg_opts false 1) eg_draws = Some (Ok (t', rays')) /\ t_A t = t_A t'.
Proof.
  destruct (eg_run 0) as (S & surfs & t & rays & HB & HO & HF & E).
  destruct (eg_run_of 2 false 1 eg_tables 0) as (S' & surfs' & t' & rays' & HB' & HO' & HF' & E'); [lra|auto|].
  exists S, S', surfs, surfs', t, t', rays, rays'. split; [exact HB|]. split; [exact HB'|]. split; [exact HO'|]. split; [exact HF'|]. split; [exact E|]. split; [exact E'|].
  apply (C176_light_only S _ _ _ _ _ surfs _ _ _ S' _ surfs' _ _ 1%nat 0%nat 1%nat 0%nat t rays t' rays' HB HB' HO HO' HF HF'); auto.
Qed.
