(* rt_structure.calculate: in planar structures of absorbing layers every ray ends. *)
From Coq Require Import Reals List Bool ZArith Lia Lra.
From Verif Require Import Base Lib Model_Angles Model_Optics Model_OpticsC Model_RayIface Model_RayStack Model_Surface Model_RTStruct Model_Trace
  Model_StackRay Model_StackCalc
  Spec_Optics Spec_OpticsC Spec_RayIface Spec_RayStack Spec_Surface Spec_RTStruct Spec_Trace Spec_StackRay Spec_StackCalc
  Proof_Optics Proof_RayStack Proof_RayEnergy Proof_RTStruct Proof_RTStruct3 Proof_StackRay Proof_StackFlat Proof_StackPlanar Proof_StackCalc Proof_StackCalc2.
Import ListNotations.
Open Scope R_scope.

(* ---------- a path that is proper as far as it is followed ---------- *)

Lemma heading_agree d0 o1 o2 n : (forall k, (k < n)%nat -> o1 k = o2 k) -> forall k, (k <= n)%nat -> heading d0 o1 k = heading d0 o2 k.
Proof. intros H. induction k as [|k IH]; intros L; [reflexivity|]. cbn [heading]. rewrite H, IH by lia. reflexivity. Qed.

Lemma srun_agree n K : forall st o1 o2 k, (forall i, (k <= i < k + n)%nat -> o1 i = o2 i) -> srun n K st o1 k = srun n K st o2 k.
Proof.
  induction n as [|n IH]; intros st o1 o2 k H; [reflexivity|]. cbn [srun]. rewrite <- (H k) by lia.
  destruct (sstep K st (o1 k)) as [[s|s]|e]; auto. apply IH. intros i Hi. apply H. lia.
Qed.

(* the path afterwards: straight on *)
Definition continued (d0 : Z) (outs : nat -> outcome) (n k : nat) : outcome :=
  if Nat.ltb k n then outs k else OTransmitted (if Z.eqb (heading d0 outs n) 1 then PI else 0).

Lemma continued_proper d0 outs n : (forall k, (k < n)%nat -> proper (heading d0 outs k) (outs k)) -> proper_path d0 (continued d0 outs n).
Proof.
  intros H. pose proof PI_RGT_0 as PP.
  assert (A : forall k, (k <= n)%nat -> heading d0 (continued d0 outs n) k = heading d0 outs k).
  { apply heading_agree. intros k L. unfold continued. now rewrite (proj2 (Nat.ltb_lt k n) L). }
  assert (B : forall k, (n <= k)%nat -> heading d0 (continued d0 outs n) k = heading d0 outs n).
  { induction k as [|k IH]; intros L; [replace n with 0%nat by lia; reflexivity|]. destruct (Nat.eq_dec n (S k)) as [<-|N]; [apply A; lia|].
    cbn [heading]. rewrite IH by lia. unfold continued. rewrite (proj2 (Nat.ltb_ge k n)) by lia. reflexivity. }
  intros k. destruct (le_lt_dec n k) as [L|L].
  - rewrite B by exact L. unfold continued. rewrite (proj2 (Nat.ltb_ge k n)) by lia. cbn [proper]. destruct (Z.eqb _ 1); [split|split]; lra.
  - rewrite A by lia. unfold continued. rewrite (proj2 (Nat.ltb_lt k n) L). now apply H.
Qed.

(* a ray in absorbing layers ends if its outcomes are proper as long as it has not *)
Lemma ends_if_proper K ws m0 d0 outs c n : stack_of K ws -> good_start ws m0 d0 ->
  (single_ray_stack n K m0 d0 outs = None -> forall k, (k < n)%nat -> proper (heading d0 outs k) (outs k)) ->
  0 < c -> (forall i, (i < length ws)%nat -> c <= nth (S i) (k_alphas K) 0 * nth i ws 0) ->
  (1 <= n)%nat -> - ln (k_thresh K) < INR n * c ->
  single_ray_stack n K m0 d0 outs <> None.
Proof.
  intros HK HG HP Hc HA Hn HT E. specialize (HP E).
  destruct (absorbing_terminates K ws m0 d0 (continued d0 outs n) c n HK HG (continued_proper d0 outs n HP) Hc HA Hn HT) as [st Hs].
  unfold single_ray_stack in *. rewrite (srun_agree n K _ (continued d0 outs n) outs 0) in Hs; [congruence|].
  intros i Hi. unfold continued. rewrite (proj2 (Nat.ltb_lt i n)) by lia. reflexivity.
Qed.

(* ---------- planar stacks ---------- *)

Lemma absorbed_stops K st A s' : sstep K st (OAbsorbed A) = Ok (inl s') -> False.
Proof. unfold sstep. do 3 (match goal with |- rbind ?x _ = _ -> _ => destruct x; cbn [rbind]; [|discriminate] end). discriminate. Qed.

Section Going.
  Variables (U : setup) (ws : list R) (films : list film) (m0 d0 : Z) (theta f : R).
  Hypothesis HP : planar_structure U ws films m0 theta.
  Hypothesis Hm0 : (0 <= m0 <= Z.of_nat (length ws) + 1)%Z.
  Hypothesis Ht : 0 <= theta < PI / 2.
  Let ns := u_nks U.
  Let u := dr_rnd (u_draws U).
  Let out := planar_out ns films m0 d0 theta u.

  Lemma going_proper k st pos dv : (forall A, out k <> OAbsorbed A) -> rel U ws films m0 d0 theta f k st -> left_by U ws films m0 theta f k (s_mat (x_st st)) (s_dir (x_st st)) pos dv ->
    proper (s_dir (x_st st)) (out k).
  Proof.
    intros NA R L. pose proof (out_eq U ws films m0 d0 theta f k st R) as O. fold ns u out in O. rewrite O in NA |- *.
    pose proof (s_nonneg U ws films m0 theta HP Hm0 Ht) as S0. pose proof (rl_low _ _ _ _ _ _ _ _ _ R) as Rl.
    destruct (rl_placed _ _ _ _ _ _ _ _ _ R) as (P1 & _ & _). unfold left_by in L. fold ns u in L, S0, Rl.
    set (m := s_mat (x_st st)) in *. set (d := s_dir (x_st st)) in *.
    destruct (next_fate ns films m0 theta u m d k) as [| |A] eqn:E.
    - destruct (asin_snell _ _ (conj S0 Rl)) as [A1 _]. change (asin _) with (snell ns m0 theta m) in A1. cbn [proper]. unfold polar_of.
      destruct P1 as [-> | ->]; cbn [Z.opp Z.eqb Pos.eqb]; unfold upwards, downwards; lra.
    - destruct L as (Lt & _). destruct (asin_snell _ _ (conj S0 Lt)) as [A1 _]. change (asin _) with (snell ns m0 theta (m + d)) in A1. cbn [proper]. unfold polar_of.
      destruct P1 as [E1 | E1]; rewrite E1 in *; cbn [Z.opp Z.eqb Pos.eqb]; unfold upwards, downwards; lra.
    - exfalso. now apply (NA A).
  Qed.

  Lemma unended n : forall k st, rel U ws films m0 d0 theta f k st -> srun n (u_K U) (x_st st) out k = None ->
    forall j, (k <= j < k + n)%nat -> proper (heading d0 out j) (out j).
  Proof.
    induction n as [|n IH]; intros k st R E j Hj; [lia|]. cbn [srun] in E.
    destruct (planar_check 0 U ws films m0 d0 theta f HP Hm0 Ht k st R) as (pos & dv & loc & L & _).
    destruct (sstep (u_K U) (x_st st) (out k)) as [[s'|s']|e] eqn:Es; try discriminate.
    destruct (Nat.eq_dec j k) as [->|N].
    - pose proof (rl_at _ _ _ _ _ _ _ _ _ R) as Ra. rewrite planar_at_path in Ra. injection Ra as _ Rh. fold ns u out in Rh. rewrite Rh.
      apply (going_proper k st pos dv); auto. intros A EA. rewrite EA in Es. exact (absorbed_stops (u_K U) (x_st st) A s' Es).
    - pose proof (rel_next U ws films m0 d0 theta f HP Hm0 Ht k st s' pos dv 0 loc R L Es) as R'.
      apply (IH (S k) _ R'); [exact E|lia].
  Qed.
End Going.

Lemma planar_ends U ws films m0 d0 theta phi h x y c outer fuel : planar_structure U ws films m0 theta -> 0 <= theta < PI / 2 -> 0 <= h ->
  (d0 = 1 /\ 0 <= m0 <= Z.of_nat (length ws))%Z \/ (d0 = -1 /\ 1 <= m0 <= Z.of_nat (length ws))%Z ->
  0 < c -> (forall i, (i < length ws)%nat -> c <= nth (S i) (k_alphas (u_K U)) 0 * nth i ws 0) ->
  (1 <= outer)%nat -> - ln (k_thresh (u_K U)) < INR outer * c ->
  exists fin, trace_stack outer (3 + fuel) U (start_vector h theta phi) x y m0 d0 = Some (Ok fin).
Proof.
  intros HP Ht Hh HG Hc HA Hn HT. pose proof (planar_trace U ws films m0 d0 theta phi h x y outer fuel HP Ht Hh HG) as Q.
  destruct (planar_start U ws films m0 d0 theta phi h x y HP Ht Hh HG) as (st & E & Ex & R).
  assert (Hm0 : (0 <= m0 <= Z.of_nat (length ws) + 1)%Z) by (destruct HG as [[_ G]|[_ G]]; lia).
  assert (GS : good_start ws m0 d0) by (destruct HG as [[-> G]|[-> G]]; [left|right]; split; auto; lia).
  destruct (single_ray_stack _ _ _ _ _) as [[s'|e]|] eqn:ES; [|contradiction|].
  - destruct Q as (fin & Q & _). eauto.
  - exfalso. refine (ends_if_proper (u_K U) ws m0 d0 _ c outer (st_stack _ _ (pl_struct _ _ _ _ _ HP)) GS _ Hc HA Hn HT ES).
    intros E0 k Hk. unfold single_ray_stack in E0. rewrite <- Ex in E0.
    apply (unended U ws films m0 d0 theta (phi + PI) HP Hm0 Ht outer 0 st R E0 k). lia.
Qed.

(* ---------- calculate ---------- *)

Lemma all_done_all {A} : forall l : list (option (res A)), (forall z, In z l -> exists a, z = Some (Ok a)) -> exists r, all_done l = Some (Ok r).
Proof.
  induction l as [|z l IH]; intros H; [exists []; reflexivity|]. destruct (H z (or_introl eq_refl)) as [a ->].
  destruct IH as [r E]; [intros; apply H; now right|]. cbn [all_done]. rewrite E. eauto.
Qed.

Section Ends.
  Variables (S : store) (textures : list nat) (materials : list material) (widths : list R) (inc trn : material) (surfs : list rtsurf).
  Variables (tables : list (option (Z -> R -> table_entry))) (o : rt_options) (w : rt_draws).
  Let mats := inc :: materials ++ [trn].
  Let ws := map (fun x => 10 ^ 6 * x) widths.
  Hypothesis HB : built_structure S textures materials widths inc trn surfs.
  Hypothesis HO : sound_options mats widths tables surfs o w.
  Hypothesis HF : flat_structure S textures widths mats tables o w.

  Lemma flat_start : (start_dir o = 1 /\ 0 <= start_mat o <= Z.of_nat (length ws))%Z \/ (start_dir o = -1 /\ 1 <= start_mat o <= Z.of_nat (length ws))%Z.
  Proof.
    pose proof (op_start _ _ _ _ _ _ HO) as G. pose proof (fl_start _ _ _ _ _ _ _ HF) as Fs. unfold ws. rewrite map_length. unfold good_start in G.
    destruct G as [[G1 G2]|[G1 G2]]; [left|right]; split; auto; lia.
  Qed.

  Lemma calculate_none outer fuel : (forall s k x y, nth_error surfs 0 = Some s -> exists fin, ray_from materials widths inc trn surfs tables o w outer fuel k s x y = Some (Ok fin)) ->
    exists out, calculate outer fuel surfs mats widths tables o w = Some out.
  Proof.
    intros H. unfold calculate, calc_rays. destruct (nth_error surfs 0) as [s0|] eqn:S0; [|eauto]. fold (start_mat o) (start_dir o).
    set (xs := coords _ (limits (c_xlim o) _ _ _) _ _). set (ys := coords _ (limits (c_ylim o) _ _ _) _ _).
    assert (Lx : length xs = c_nx o) by apply coords_length. assert (Ly : length ys = c_ny o) by apply coords_length.
    pose proof (rays_all None (fun k x y => ray_from materials widths inc trn surfs tables o w outer fuel k s0 x y) (c_nrays o) (c_nx o) (c_ny o) xs ys Lx Ly (op_grid _ _ _ _ _ _ HO)) as RA.
    cbv zeta in RA. unfold ray_from in RA at 1 2 3 4 5. set (arr := fill_rays _ _ _ _ _ _ _) in *. destruct RA as (_ & _ & R3).
    destruct (all_done_all arr) as [r ->]; [|eauto].
    intros z Hz. apply (In_nth _ _ None) in Hz. destruct Hz as (k & Hk & <-). rewrite R3 by exact Hk. now apply H.
  Qed.

  Lemma flat_ends c outer fuel : 0 < c ->
    (forall i, (i < length widths)%nat -> c <= 4 * PI * im (nth i materials inc (c_wl o)) / c_wl o * nth i widths 0) ->
    (1 <= outer)%nat -> - ln (c_thresh o) < INR outer * c ->
    exists out, calculate outer (3 + fuel) surfs mats widths tables o w = Some out.
  Proof.
    intros Hc HA Hn HT. apply calculate_none. intros s k x y Hs. unfold ray_from.
    apply (planar_ends (calc_setup surfs mats widths tables o w k) ws (films_on (c_pol o) tables) (start_mat o) (start_dir o) (c_theta o) (c_phi o) _ x y c).
    - exact (calc_planar S textures materials widths inc trn surfs tables o w HB HO HF k).
    - exact (op_theta _ _ _ _ _ _ HO).
    - exact (op_high _ _ _ _ _ _ HO s Hs).
    - apply flat_start.
    - exact Hc.
    - intros i Hi. unfold ws in Hi. rewrite map_length in Hi. cbn [calc_setup u_K calc_stack k_alphas]. pose proof (op_wl _ _ _ _ _ _ HO) as W.
      pose proof (bs_materials _ _ _ _ _ _ _ HB) as Lm.
      set (g := fun m : material => im (m (c_wl o)) * 4 * PI / (c_wl o * 10 ^ 6)). 
      assert (A : nth (Datatypes.S i) (map g mats) 0 = g (nth i materials inc)).
      { rewrite (nth_indep _ 0 (g inc)) by (rewrite map_length; unfold mats; cbn [length]; rewrite app_length; lia). rewrite map_nth. unfold mats. cbn [nth]. rewrite app_nth1 by lia. reflexivity. }
      match goal with |- _ <= nth ?a ?b 0 * _ => change (nth a b 0) with (nth (Datatypes.S i) (map g mats) 0) end.
      rewrite A. assert (B : nth i ws 0 = 10 ^ 6 * nth i widths 0). { unfold ws. rewrite <- (map_nth (fun x => 10 ^ 6 * x)). now rewrite Rmult_0_r. }
      rewrite B. eapply Rle_trans; [apply (HA i Hi)|]. right. unfold g. field. lra.
    - exact Hn.
    - exact HT.
  Qed.
End Ends.
