(* C185: a bulk layer between ray-traced surfaces. *)
From Coq Require Import Reals List Bool ZArith Lia Lra String.
From Verif Require Import Base Lib Model_Angles Model_Ideal Model_MatMul Model_TMM Model_Optics Model_OpticsC Model_RayIface Model_RT Model_Surface Model_RTStruct Model_Trace
  Model_StackCalc Model_RTCalc Model_RTSlab Model_Slab
  Spec_Angles Spec_Matrix Spec_MatMul Spec_TMM Spec_Slab Spec_OpticsC Spec_RTStruct Spec_Surface Spec_Trace Spec_RTCalc Spec_RTSlab
  Proof_RAT Proof_Slab3 Proof_RTFlat Proof_RTSlab Prop_MatMul Prop_Slab Prop_Trace Prop_RTCalc.
Import ListNotations.
Local Notation length := List.length.
Open Scope list_scope.
Open Scope R_scope.

(* ---------- C185 ---------- *)

(* From surfaces and random numbers to the result: whatever the textures, if the rays have been followed to their end, then the matrices of
   the two surfaces, multiplied with an absorbing bulk between them, give a run that ends; all quantities are fractions and they add up to
   one with what is left in the bulk, at most the threshold.  The back surface may also be plane, a mirror or a Lambertian reflector. *)
Theorem C185_energy : forall outer fuel o g h m n0 n1 inc bulk trn tex0 tex1 zf zb z1 wf wb w1 qf qb f1 M (wls : list (solver M * (M -> R))) mem
    thick thresh alphas prof eps,
  angular_grid o g -> length (g_av g) = (2 * h)%nat -> m_fold m (m_phisym o) -> relabel_ok (m_ntheta o) m g -> enough_rays o g ->
  good_direction (m_phisym o) (m_theta o) (m_phi o) ->
  alphas <> [] -> length wf = length alphas -> length wb = length alphas ->
  0 < eps -> (forall x, In x alphas -> eps <= x * thick) -> 0 < thresh ->
  traceable Front o n0 inc bulk tex0 wf -> traceable Rear o n0 inc bulk tex0 wb ->
  rt_stored outer fuel Front false o n0 inc bulk tex0 zf wf = Some qf -> rt_stored outer fuel Rear false o n0 inc bulk tex0 zb wb = Some qb ->
  ((length w1 = length alphas /\ traceable Front o n1 bulk trn tex1 w1 /\ rt_stored outer fuel Front false o n1 bulk trn tex1 z1 w1 = Some (Ok f1)) \/
   (length wls = length alphas /\ 1 / 10 ^ 10 <= m_phisym o /\
      exists a1, tmm_stored wls mem a1 Front g (m_phisym o) = Ok f1 /\ (ar_pol a1 = "s" \/ ar_pol a1 = "p" \/ ar_pol a1 = "u")%string /\
      forall SV idx, In (SV, idx) wls -> balances SV /\ 0 < idx (ar_inc a1) /\ 0 < idx (ar_trn a1) /\ all_kept SV mem idx a1 Front g h) \/
   (exists fm, mirror_matrix g (m_phisym o) Front = Ok fm /\ f1 = once fm /\
      (Nat.even m = true \/ forall i, (i < 2 * m_ntheta o)%nat -> Nat.even (length (phi_edges_of g i) - 1) = true)) \/
   f1 = once (lambertian_matrix g)) ->
  exists f0 b0 st out, qf = Ok f0 /\ qb = Ok b0 /\
    calculate_RAT (m_ntheta o) (m_phisym o) (m_caz o) (match m_spacing o with Some sp => sp | None => SpSin end) (m_theta o) (m_phi o) alphas thick f0 b0 f1 thresh prof
      (Z.to_nat (Zceil (ln thresh / (- 2 * eps)) + 1)) = Ok (Some (st, out)) /\
    forall w, (w < length alphas)%nat ->
      0 <= R_at out w /\ 0 <= T_at out w /\ 0 <= A_bulk_at out w /\ 0 <= A_front_at st w /\ 0 <= A_back_at st w /\
      R_at out w + T_at out w + A_bulk_at out w + A_front_at st w + A_back_at st w + still_travelling st w = 1 /\
      0 <= still_travelling st w <= thresh.
Proof.
  intros outer fuel o g h m n0 n1 inc bulk trn tex0 tex1 zf zb z1 wf wb w1 qf qb f1 M wls mem thick thresh alphas prof eps
    HG Hh Hm Hok HR Hd Hne Hwf Hwb He Ha Ht Tf Tb Ef Eb H1.
  assert (NE : forall A (l : list A), length l = length alphas -> l <> []) by (intros A l L ->; destruct alphas; [congruence|discriminate]).
  destruct (traced_conserves outer fuel Front o n0 inc bulk tex0 zf wf g h qf Tf (NE _ _ Hwf) HG Hh HR Ef) as (f0 & -> & C0 & P0).
  destruct (traced_conserves outer fuel Rear o n0 inc bulk tex0 zb wb g h qb Tb (NE _ _ Hwb) HG Hh HR Eb) as (b0 & -> & Cb & Pb).
  assert (Hv : valid_request (m_ntheta o) (m_phisym o) (m_caz o)).
  { exact (proj1 Tf). }
  assert (X1 : file_conserves (length alphas) h f1 /\ file_passive (length alphas) h f1).
  { destruct H1 as [(L1 & T1 & E1)|[(L1 & Hphi & a1 & E1 & E2 & E3)|[[fm [E1 [-> E2]]]| ->]]].
    - destruct (traced_conserves outer fuel Front o n1 bulk trn tex1 z1 w1 g h _ T1 (NE _ _ L1) HG Hh HR E1) as (f & Q & C & P). injection Q as <-. rewrite L1 in *. auto.
    - rewrite <- L1. apply (stored_conserves _ _ _ _ g h M wls mem a1 Front f1 Hv HG Hh Hphi); auto.
      destruct E2 as [ -> | [ -> | -> ] ]; [left; reflexivity|left; reflexivity|right; reflexivity].
    - apply (mirror_conserves _ _ _ _ g h m _ fm Hv HG Hh Hm E2 E1).
    - apply (lambertian_conserves _ _ _ _ g h _ Hv HG Hh). }
  destruct X1 as [C1 P1]. rewrite Hwf in *. rewrite Hwb in *.
  destruct (C12_bulk _ _ _ _ g h m (m_theta o) (m_phi o) alphas thick f0 b0 f1 thresh prof eps Hv HG Hh Hm Hok Hd He Ha Ht P0 Pb P1) as [[st out] E].
  exists f0, b0, st, out. split; [reflexivity|]. split; [reflexivity|]. split; [exact E|]. intros w Hwl.
  destruct (C10_ex _ _ _ _ g h m (m_theta o) (m_phi o) alphas thick f0 b0 f1 thresh prof (Z.to_nat (Zceil (ln thresh / (- 2 * eps)) + 1)) st out Hv HG Hh Hm Hok Hd) with (w := w)
    as [A1 [A2 [A3 [A4 [A5 [A6 _]]]]]]; auto.
  { intros x Hx. specialize (Ha x Hx). lra. }
  destruct (C09_ex _ _ _ _ g h m (m_theta o) (m_phi o) alphas thick f0 b0 f1 thresh prof (Z.to_nat (Zceil (ln thresh / (- 2 * eps)) + 1)) Hv HG Hh Hm Hok Hd C0 Cb C1) as [r [Er Q]].
  rewrite E in Er. injection Er as <-. destruct (Q st out eq_refl w Hwl) as [Q1 Q2]. auto 12.
Qed.
Print Assumptions C185_energy.

(* a plane front and a textured rear *)
Theorem C185_textured_rear : forall outer fuel o g h m n1 bulk trn tex1 z1 w1 q1 f0 b0 M (wls : list (solver M * (M -> R))) mem a0
    thick thresh alphas prof eps,
  angular_grid o g -> length (g_av g) = (2 * h)%nat -> m_fold m (m_phisym o) -> relabel_ok (m_ntheta o) m g -> enough_rays o g ->
  1 / 10 ^ 10 <= m_phisym o -> good_direction (m_phisym o) (m_theta o) (m_phi o) ->
  alphas <> [] -> length w1 = length alphas -> length wls = length alphas ->
  0 < eps -> (forall x, In x alphas -> eps <= x * thick) -> 0 < thresh ->
  (ar_pol a0 = "s" \/ ar_pol a0 = "p" \/ ar_pol a0 = "u")%string ->
  (forall SV idx, In (SV, idx) wls -> balances SV /\ 0 < idx (ar_inc a0) /\ 0 < idx (ar_trn a0) /\ all_kept SV mem idx a0 Front g h /\ all_kept SV mem idx a0 Rear g h) ->
  tmm_stored wls mem a0 Front g (m_phisym o) = Ok f0 -> tmm_stored wls mem a0 Rear g (m_phisym o) = Ok b0 ->
  traceable Front o n1 bulk trn tex1 w1 -> rt_stored outer fuel Front false o n1 bulk trn tex1 z1 w1 = Some q1 ->
  exists f1 st out, q1 = Ok f1 /\
    calculate_RAT (m_ntheta o) (m_phisym o) (m_caz o) (match m_spacing o with Some sp => sp | None => SpSin end) (m_theta o) (m_phi o) alphas thick f0 b0 f1 thresh prof
      (Z.to_nat (Zceil (ln thresh / (- 2 * eps)) + 1)) = Ok (Some (st, out)) /\
    forall w, (w < length alphas)%nat ->
      0 <= R_at out w /\ 0 <= T_at out w /\ 0 <= A_bulk_at out w /\ 0 <= A_front_at st w /\ 0 <= A_back_at st w /\
      R_at out w + T_at out w + A_bulk_at out w + A_front_at st w + A_back_at st w + still_travelling st w = 1 /\
      0 <= still_travelling st w <= thresh.
Proof.
  intros outer fuel o g h m n1 bulk trn tex1 z1 w1 q1 f0 b0 M wls mem a0 thick thresh alphas prof eps HG Hh Hm Hok HR Hphi Hd Hne Hw1 Hwl He Ha Ht Hp Hw Ef Eb T1 E1.
  assert (NE : w1 <> []) by (intros ->; destruct alphas; [congruence|discriminate]).
  destruct (traced_conserves outer fuel Front o n1 bulk trn tex1 z1 w1 g h q1 T1 NE HG Hh HR E1) as (f1 & -> & C1 & P1).
  assert (Hv : valid_request (m_ntheta o) (m_phisym o) (m_caz o)).
  { exact (proj1 T1). }
  assert (POL : in_sp (ar_pol a0) = true \/ ar_pol a0 = "u"%string) by (destruct Hp as [ -> | [ -> | -> ] ]; [left; reflexivity|left; reflexivity|right; reflexivity]).
  destruct (stored_conserves _ _ _ _ g h M wls mem a0 Front f0 Hv HG Hh Hphi POL) as [C0 P0]; auto.
  { intros SV idx Hin. destruct (Hw SV idx Hin) as [B1 [B2 [B3 [B4 B5]]]]. auto. }
  destruct (stored_conserves _ _ _ _ g h M wls mem a0 Rear b0 Hv HG Hh Hphi POL) as [Cb Pb]; auto.
  { intros SV idx Hin. destruct (Hw SV idx Hin) as [B1 [B2 [B3 [B4 B5]]]]. auto. }
  rewrite Hw1 in *. rewrite Hwl in *.
  destruct (C12_bulk _ _ _ _ g h m (m_theta o) (m_phi o) alphas thick f0 b0 f1 thresh prof eps Hv HG Hh Hm Hok Hd He Ha Ht P0 Pb P1) as [[st out] E].
  exists f1, st, out. split; [reflexivity|]. split; [exact E|]. intros w Hl.
  destruct (C10_ex _ _ _ _ g h m (m_theta o) (m_phi o) alphas thick f0 b0 f1 thresh prof (Z.to_nat (Zceil (ln thresh / (- 2 * eps)) + 1)) st out Hv HG Hh Hm Hok Hd) with (w := w)
    as [A1 [A2 [A3 [A4 [A5 [A6 _]]]]]]; auto.
  { intros x Hx. specialize (Ha x Hx). lra. }
  destruct (C09_ex _ _ _ _ g h m (m_theta o) (m_phi o) alphas thick f0 b0 f1 thresh prof (Z.to_nat (Zceil (ln thresh / (- 2 * eps)) + 1)) Hv HG Hh Hm Hok Hd C0 Cb C1) as [r [Er Q]].
  rewrite E in Er. injection Er as <-. destruct (Q st out eq_refl w Hl) as [Q1 Q2]. auto 12.
Qed.
Print Assumptions C185_textured_rear.

(* a glass plate at two wavelengths, light from 30 degrees *)
Definition plate_options (rays : nat) : rm_options :=
  {| m_wl := 1; m_pol := PolS; m_nx := 5; m_ny := 2; m_nrays := rays; m_ntheta := 5; m_phisym := PI / 2; m_caz := 1 / 4; m_spacing := None;
     m_theta := PI / 6; m_phi := PhiNum 1; m_xlim := None; m_ylim := None; m_random_pos := false; m_random_angles := false |}.
Definition plate_wave (wl : R) : rt_wave :=
  {| v_wl := wl; v_table := None; v_rnd := z_rnd sample_draws; v_xy := z_xy sample_draws; v_seen := z_seen sample_draws; v_hs := z_hs sample_draws; v_garbage := no_garbage |}.

Lemma plate_sound rays s sd v a b : flat_surface 0 1 1 s -> (a = air /\ b = glass \/ a = glass /\ b = air) -> In v [plate_wave 1; plate_wave 2] ->
  sound_request sd (wave_options (plate_options rays) v) (v_table v) 0 a b (s, s) (wave_draws sample_draws v).
Proof.
  intros F AB Hv. pose proof PI_RGT_0 as PP.
  assert (Q : v_table v = None /\ v_rnd v = z_rnd sample_draws) by (destruct Hv as [<-|[<-|[]]]; split; reflexivity). destruct Q as [Q1 Q2]. rewrite Q1.
  constructor; cbn [wave_options plate_options m_wl m_pol m_nx m_ny m_nrays m_ntheta m_phisym m_caz wave_draws z_rnd facing_surface fst snd].
  - unfold valid_request. split; [lia|]. split; lra.
  - exists 4%nat. unfold m_fold. split; [lia|]. cbn [INR]. field.
  - lia.
  - destruct AB as [[-> ->]|[-> ->]]; unfold air, glass, optical_medium, creal; cbn; lra.
  - destruct (Proof_Trace2.flat_facts 0 1 1 s F) as (_ & _ & _ & _ & E & _); try lra. destruct sd; cbn [facing_surface fst snd]; lra.
  - discriminate.
  - intros k j. rewrite Q2. cbn [sample_draws z_rnd]. clear j. pose proof (Nat.mod_upper_bound k 10 ltac:(lia)) as B.
    assert (INR (k mod 10) <= 9). { replace 9 with (INR 9) by (cbn; lra). apply le_INR. lia. } lra.
Qed.

Lemma plate_stored rays s sd a b g : flat_surface 0 1 1 s -> (a = air /\ b = glass \/ a = glass /\ b = air) -> angular_grid (plate_options rays) g ->
  traceable sd (plate_options rays) 0 a b (s, s) [plate_wave 1; plate_wave 2] /\
  exists q, rt_stored 1 3 sd false (plate_options rays) 0 a b (s, s) sample_draws [plate_wave 1; plate_wave 2] = Some q.
Proof.
  intros F AB HG. assert (TB : forall v, In v [plate_wave 1; plate_wave 2] -> v_table v = None) by (intros v [<-|[<-|[]]]; reflexivity).
  split.
  - pose proof (fun v Hv => plate_sound rays s sd v a b F AB Hv) as PS. pose proof (PS _ (or_introl eq_refl)) as P1.
    split; [exact (sq_grid _ _ _ _ _ _ _ _ P1)|]. split; [exact (sq_fold _ _ _ _ _ _ _ _ P1)|]. split; [exact (sq_rays _ _ _ _ _ _ _ _ P1)|].
    split; [exact (sq_high _ _ _ _ _ _ _ _ P1)|]. intros v Hv. pose proof (PS v Hv) as P. destruct (sq_media _ _ _ _ _ _ _ _ P) as [M1 M2].
    split; [exact M1|]. split; [exact M2|]. split; [exact (sq_table _ _ _ _ _ _ _ _ P)|].
    split; [rewrite (TB v Hv); intros ent k psi x Q; discriminate|exact (sq_rnd _ _ _ _ _ _ _ _ P)].
  - apply traced_exists. intros v Hv. pose proof (plate_sound rays s sd v a b F AB Hv) as SQ. rewrite (TB v Hv) in *.
    assert (SC : smooth_crossing sd (wave_options (plate_options rays) v) None a b).
    { apply transparent_crossing; destruct AB as [[-> ->]|[-> ->]]; unfold air, glass, creal; cbn; lra. }
    exact (flat_ends 0 0 sd (wave_options (plate_options rays) v) None 0 a b (s, s) (wave_draws sample_draws v) 0 1 1 SQ
      ltac:(destruct sd; exact F) ltac:(lra) ltac:(lra) SC false (v_garbage v) g HG ltac:(discriminate)).
Qed.

Example C185_case : exists g h s qf qb f1, angular_grid (plate_options (h * (5 * 2))) g /\ length (g_av g) = (2 * h)%nat /\ (0 < h)%nat /\ flat_surface 0 1 1 s /\
  m_fold 4 (PI / 2) /\ relabel_ok 5 4 g /\ enough_rays (plate_options (h * (5 * 2))) g /\ good_direction (PI / 2) (PI / 6) (PhiNum 1) /\
  traceable Front (plate_options (h * (5 * 2))) 0 air glass (s, s) [plate_wave 1; plate_wave 2] /\
  traceable Rear (plate_options (h * (5 * 2))) 0 air glass (s, s) [plate_wave 1; plate_wave 2] /\
  traceable Front (plate_options (h * (5 * 2))) 0 glass air (s, s) [plate_wave 1; plate_wave 2] /\
  rt_stored 1 3 Front false (plate_options (h * (5 * 2))) 0 air glass (s, s) sample_draws [plate_wave 1; plate_wave 2] = Some qf /\
  rt_stored 1 3 Rear false (plate_options (h * (5 * 2))) 0 air glass (s, s) sample_draws [plate_wave 1; plate_wave 2] = Some qb /\
  rt_stored 1 3 Front false (plate_options (h * (5 * 2))) 0 glass air (s, s) sample_draws [plate_wave 1; plate_wave 2] = Some (Ok f1) /\
  exists st o, forall f0 b0, qf = Ok f0 -> qb = Ok b0 ->
    calculate_RAT 5 (PI / 2) (1 / 4) SpSin (PI / 6) (PhiNum 1) [1; 2] 1 f0 b0 f1 (1 / 1000) true (Z.to_nat (Zceil (ln (1 / 1000) / (- 2 * 1)) + 1)) = Ok (Some (st, o)).
Proof.
  destruct sample_grid as [g [h [A [B [C [D [E [F G]]]]]]]]. destruct a_flat_surface as [s [_ S]].
  assert (HG : angular_grid (plate_options (h * (5 * 2))) g) by exact B.
  assert (HR : enough_rays (plate_options (h * (5 * 2))) g).
  { split; [reflexivity|]. rewrite (Proof_RT.half_len g h C). cbn [plate_options m_nx m_ny m_nrays]. lia. }
  destruct (plate_stored (h * (5 * 2)) s Front air glass g S (or_introl (conj eq_refl eq_refl)) HG) as [Tf [qf Ef]].
  destruct (plate_stored (h * (5 * 2)) s Rear air glass g S (or_introl (conj eq_refl eq_refl)) HG) as [Tb [qb Eb]].
  destruct (plate_stored (h * (5 * 2)) s Front glass air g S (or_intror (conj eq_refl eq_refl)) HG) as [T1 [q1 E1]].
  destruct (traced_conserves 1 3 Front _ 0 glass air (s, s) sample_draws _ g h q1 T1 ltac:(discriminate) HG C HR E1) as (f1 & -> & _).
  destruct (C185_energy 1 3 (plate_options (h * (5 * 2))) g h 4 0 0 air glass air (s, s) (s, s) sample_draws sample_draws sample_draws
    [plate_wave 1; plate_wave 2] [plate_wave 1; plate_wave 2] [plate_wave 1; plate_wave 2] qf qb f1 nat [] [] 1 (1 / 1000) [1; 2] true 1) as (f0 & b0 & st & o & -> & -> & R & _);
    auto; try lra; try discriminate.
  { intros x [<-|[<-|[]]]; lra. }
  exists g, h, s, (Ok f0), (Ok b0), f1. split; [exact HG|]. split; [exact C|]. split; [exact D|]. split; [exact S|]. split; [exact E|]. split; [exact F|]. split; [exact HR|]. split; [exact G|].
  split; [exact Tf|]. split; [exact Tb|]. split; [exact T1|]. split; [exact Ef|]. split; [exact Eb|]. split; [exact E1|].
  exists st, o. intros f0' b0' Q1 Q2. injection Q1 as <-. injection Q2 as <-. exact R.
Qed.
(* the same plate with its front calculated by transfer matrices instead meets the conditions of C185_textured_rear *)
Example C185_rear_case : exists g h s f0 b0 q1, angular_grid (plate_options (h * (5 * 2))) g /\ length (g_av g) = (2 * h)%nat /\ (0 < h)%nat /\
  tmm_stored [(thin, fun _ => 1); (thin, fun _ => 1)] [] air_film_bulk Front g (PI / 2) = Ok f0 /\
  tmm_stored [(thin, fun _ => 1); (thin, fun _ => 1)] [] air_film_bulk Rear g (PI / 2) = Ok b0 /\
  (forall SV idx, In (SV, idx) [(thin, fun _ => 1); (thin, fun _ => 1)] -> balances SV /\ 0 < idx 0%nat /\ 0 < idx 2%nat /\
     all_kept SV [] idx air_film_bulk Front g h /\ all_kept SV [] idx air_film_bulk Rear g h) /\
  traceable Front (plate_options (h * (5 * 2))) 0 glass air (s, s) [plate_wave 1; plate_wave 2] /\
  rt_stored 1 3 Front false (plate_options (h * (5 * 2))) 0 glass air (s, s) sample_draws [plate_wave 1; plate_wave 2] = Some q1.
Proof.
  destruct C150_case as [g [h [f0 [b0 [f1 [_ [_ [A [B [C [D [E [F [HP [G [KK [E0 [Eb _]]]]]]]]]]]]]]]]]]. destruct a_flat_surface as [s [_ S]].
  destruct (plate_stored (h * (5 * 2)) s Front glass air g S (or_intror (conj eq_refl eq_refl)) B) as [T1 [q1 E1]].
  exists g, h, s, f0, b0, q1. split; [exact B|]. split; [exact C|]. split; [exact D|]. split; [exact E0|]. split; [exact Eb|]. split; [|auto].
  intros SV idx Q. destruct (KK SV idx Q) as [Q1 [Q2 [Q3 [Q4 [Q5 Q6]]]]]. auto.
Qed.
