(* C183, C184: averages of the matrices of RT. *)
From Coq Require Import Reals List Bool ZArith Lia Lra.
From Verif Require Import Base Lib Model_Angles Model_Ideal Model_MatMul Model_Optics Model_OpticsC Model_RayIface Model_RT Model_Surface Model_RTStruct Model_Trace Model_StackCalc Model_RTCalc
  Spec_Angles Spec_Matrix Spec_Optics Spec_OpticsC Spec_RayIface Spec_RT Spec_RTStruct Spec_Surface Spec_Trace Spec_StackRay Spec_Mean Spec_Chance Spec_RTCalc
  Proof_Angles Proof_AnglesProps Proof_RT Proof_RT2 Proof_RTRows Proof_RTCalc Proof_RTFlat Proof_RTChance Proof_RTFlat2 Prop_Trace Prop_RTCalc.
Import ListNotations.
Local Notation length := List.length.
Open Scope list_scope.
Open Scope R_scope.

(* ---------- C183 ---------- *)

(* Any surface without random heights, any media and lookup table.  If the rays are followed to their end whatever the random numbers, each
   entry of the matrix and the absorption in the layers of the surface have an average over these numbers.  In a column that light was
   sent from in the directions l, the chance of being off that average by eps or more is at most 1 / (4 n eps^2), n being the number of
   rays sent in these directions. *)
Theorem C183_close : forall outer fuel s only o table n_abs inc trn texture z G g n k l w,
  sound_request s o table n_abs inc trn texture z -> angular_grid o g -> inclined only o z -> su_dist (facing_surface s texture) = None -> (fuel <= n)%nat ->
  let value u := share_in k w (RT_matrices outer fuel s only o table n_abs inc trn texture (rm_numbers z n u) G) in
  (forall u, fractions u -> RT_matrices outer fuel s only o table n_abs inc trn texture (rm_numbers z n u) G <> None) ->
  (k < length (g_av g) / 2)%nat -> (forall r, w = IntoBin r -> (r < length (g_av g))%nat) -> directions_in only s o z g k l ->
  let N := (how_many_directions only o g * (m_nx o * m_ny o) * n)%nat in
  exists m, mean N value m /\ forall eps, 0 < eps -> rarely_off N value m eps (1 / (4 * INR (length l * (m_nx o * m_ny o)) * eps ^ 2)).
Proof.
  intros outer fuel s only o table n_abs inc trn texture z G g n k l w HQ HG HI _ HN value Ends Hk Hw HL.
  exact (share_close outer fuel s only o table n_abs inc trn texture z G g n HQ HG HI HN Ends k l w Hk Hw HL).
Qed.
Print Assumptions C183_close.

(* With the default directions and q rays for each column and position this is so in every column. *)
Theorem C183_default : forall outer fuel s o table n_abs inc trn texture z G g n k q w,
  sound_request s o table n_abs inc trn texture z -> angular_grid o g -> m_random_angles o = false -> su_dist (facing_surface s texture) = None -> (fuel <= n)%nat ->
  let value u := share_in k w (RT_matrices outer fuel s false o table n_abs inc trn texture (rm_numbers z n u) G) in
  (forall u, fractions u -> RT_matrices outer fuel s false o table n_abs inc trn texture (rm_numbers z n u) G <> None) ->
  (k < length (g_av g) / 2)%nat -> (forall r, w = IntoBin r -> (r < length (g_av g))%nat) ->
  (0 < q)%nat -> (q * (length (g_av g) / 2) * (m_nx o * m_ny o) <= m_nrays o)%nat ->
  let N := (how_many_directions false o g * (m_nx o * m_ny o) * n)%nat in
  exists m, mean N value m /\ forall eps, 0 < eps -> rarely_off N value m eps (1 / (4 * INR (q * (m_nx o * m_ny o)) * eps ^ 2)).
Proof.
  intros outer fuel s o table n_abs inc trn texture z G g n k q w HQ HG HR HD HN value Ends Hk Hw Hq HNR.
  destruct (proj1 (C01_rows _ _ _ _ _ (sq_grid _ _ _ _ _ _ _ _ HQ) HG)) as [h [Hh _]]. pose proof (half_len g h Hh) as HL.
  destruct (default_list s o table n_abs inc trn texture z g h HQ HG Hh HR k q) as (l & L & <-); [lia|exact Hq|rewrite <- HL; exact HNR|].
  apply (C183_close outer fuel s false o table n_abs inc trn texture z G g n k l w); auto. unfold inclined. rewrite HR. discriminate.
Qed.
Print Assumptions C183_default.

(* 20 rays for each column: within 1/5 of the average with a chance of 11/16 or more *)
Example C183_case : exists g h s, angular_grid (sample_options (2 * h * (5 * 2))) g /\ length (g_av g) = (2 * h)%nat /\ (0 < h)%nat /\ flat_surface 0 1 1 s /\
  forall k r, (k < h)%nat -> (r < 2 * h)%nat ->
  let value u := share_in k (IntoBin r) (RT_matrices 1 3 Rear false (sample_options (2 * h * (5 * 2))) None 0 air glass (s, s) (rm_numbers sample_draws 3 u) no_garbage) in
  exists m p, mean (2 * h * (5 * 2) * 3) value m /\ mean (2 * h * (5 * 2) * 3) (fun u => if Rleb (1 / 5) (Rabs (value u - m)) then 1 else 0) p /\ p <= 5 / 16.
Proof.
  destruct C152_case as (g & h & s & l & A & B & C & D & E & F & _).
  exists g, h, s. split; [exact B|]. split; [exact C|]. split; [exact D|]. split; [exact F|]. intros k r Hk Hr value. set (o := sample_options (2 * h * (5 * 2))) in *.
  pose proof (sample_sound (2 * h * (5 * 2)) s F) as SQ. assert (I : inclined false o sample_draws) by discriminate. fold o in SQ. pose proof (half_len g h C) as HL.
  assert (HN : n_angles_of (2 * h * (5 * 2)) 5 2 = (2 * h)%nat).
  { unfold n_angles_of. assert (Q : Zceil (INR (2 * h * (5 * 2)) / INR (5 * 2)) = Z.of_nat (2 * h)).
    { replace (INR (2 * h * (5 * 2)) / INR (5 * 2)) with (IZR (Z.of_nat (2 * h))); [apply Zceil_unique; lra|]. rewrite <- INR_IZR_INZ, (mult_INR (2 * h)). field. cbn. lra. }
    rewrite Q. apply Nat2Z.id. }
  destruct (C183_default 1 3 Rear o None 0 air glass (s, s) sample_draws no_garbage g 3 k 2 (IntoBin r) SQ B eq_refl) as (m & M & P).
  - cbn [facing_surface snd]. destruct (Proof_Trace2.flat_facts 0 1 1 s F ltac:(lra) ltac:(lra)) as (_ & _ & _ & _ & _ & _ & _ & Q & _). exact Q.
  - lia.
  - intros u Hu. destruct (flat_ends 0 0 Rear o None 0 air glass (s, s) (rm_numbers sample_draws 3 u) 0 1 1 (numbers_sound Rear o None 0 air glass (s, s) sample_draws SQ u 3 Hu) F ltac:(lra) ltac:(lra)
      (transparent_crossing Rear o air glass eq_refl eq_refl Rlt_0_1 ltac:(cbn; lra)) false no_garbage g B I) as [out O]. cbn [Nat.add] in O. rewrite O. discriminate.
  - rewrite HL. exact Hk.
  - intros r' E'. injection E' as <-. lia.
  - lia.
  - rewrite HL. cbn [o sample_options m_nx m_ny m_nrays]. lia.
  - unfold how_many_directions in M, P. cbn [o sample_options m_nx m_ny m_nrays] in M, P. rewrite HN in M, P. exists m. destruct (P (1 / 5) ltac:(lra)) as (p & P1 & P2). exists p.
    split; [exact M|]. split; [exact P1|]. replace (5 / 16) with (1 / (4 * INR (2 * (5 * 2)) * (1 / 5) ^ 2)) by (cbn; lra). exact P2.
Qed.

(* ---------- C184 ---------- *)

(* A flat surface between any two media, bare or with a lookup table, and a fold symmetry that maps directions to opposite ones.  In the
   column of a row of the grid the average over the random numbers is the reflectance in the bin of that row, the transmittance in the
   bin of Snell's angle, what is left in the layers of the surface, and 0 in every other bin; the chance of being off by eps or more is at
   most 1 / (4 n eps^2) for n rays in the column. *)
Theorem C184_default : forall outer fuel s o table n_abs inc trn texture z G g n m z0 a b k r q w x,
  sound_request s o table n_abs inc trn texture z -> angular_grid o g -> m_random_angles o = false -> (3 + fuel <= n)%nat ->
  m_fold m (m_phisym o) -> Nat.even m = true -> flat_surface z0 a b (facing_surface s texture) -> 0 < a -> 0 < b ->
  smooth_crossing s o table inc trn -> probable_table table ->
  (k < length (g_av g) / 2)%nat -> nth_error (g_av g) (column_row s (length (g_av g) / 2) k) = Some r ->
  (0 < q)%nat -> (q * (length (g_av g) / 2) * (m_nx o * m_ny o) <= m_nrays o)%nat ->
  flat_share s o table inc trn g k (as_seen s (a_theta r)) (a_phi r) w x ->
  let value u := share_in k w (RT_matrices (S outer) (3 + fuel) s false o table n_abs inc trn texture (rm_numbers z n u) G) in
  let N := (how_many_directions false o g * (m_nx o * m_ny o) * n)%nat in
  mean N value x /\ forall eps, 0 < eps -> rarely_off N value x eps (1 / (4 * INR (q * (m_nx o * m_ny o)) * eps ^ 2)).
Proof.
  intros outer fuel s o table n_abs inc trn texture z G g n m z0 a b k r q w x HQ HG HR HN Hm He HF Ha Hb HC HP Hk Hr Hq HNR HX.
  destruct (proj1 (C01_rows _ _ _ _ _ (sq_grid _ _ _ _ _ _ _ _ HQ) HG)) as [h [Hh _]]. pose proof (half_len g h Hh) as HL.
  destruct (default_list s o table n_abs inc trn texture z g h HQ HG Hh HR k q) as (l & L & <-); [lia|exact Hq|rewrite <- HL; exact HNR|].
  apply (flat_average outer fuel s false o table n_abs inc trn texture z G g n m z0 a b HQ HG ltac:(unfold inclined; rewrite HR; discriminate) HN Hm He HF Ha Hb HC HP k
    (as_seen s (a_theta r)) (a_phi r) w x l Hk L); [|exact HX].
  intros i theta phi GO IC. rewrite HL in *. exact (default_direction s o table n_abs inc trn texture z g h HQ HG Hh HR m k r i theta phi Hm He Hk Hr GO IC).
Qed.
Print Assumptions C184_default.

(* light from within glass, 20 rays for each column *)
Example C184_case : exists g h s, angular_grid (sample_options (2 * h * (5 * 2))) g /\ length (g_av g) = (2 * h)%nat /\ (0 < h)%nat /\ flat_surface 0 1 1 s /\
  forall k r, (k < h)%nat -> nth_error (g_av g) (h + k) = Some r ->
  mean (how_many_directions false (sample_options (2 * h * (5 * 2))) g * (5 * 2) * 3)
    (fun u => share_in k (IntoBin (h + k)) (RT_matrices 1 3 Rear false (sample_options (2 * h * (5 * 2))) None 0 air glass (s, s) (rm_numbers sample_draws 3 u) no_garbage))
    (fresnel_Rc (creal (3 / 2)) (creal 1) (PI - a_theta r) PolS).
Proof.
  destruct C152_case as (g & h & s & l & A & B & C & D & E & F & _).
  exists g, h, s. split; [exact B|]. split; [exact C|]. split; [exact D|]. split; [exact F|]. intros k r Hk Hr. pose proof (half_len g h C) as HL.
  apply (C184_default 0 0 Rear (sample_options (2 * h * (5 * 2))) None 0 air glass (s, s) sample_draws no_garbage g 3 4 0 1 1 k r 2 (IntoBin (h + k))
    (back_share Rear (sample_options (2 * h * (5 * 2))) None air glass (PI - a_theta r)) (sample_sound _ s F) B eq_refl).
  - lia.
  - unfold m_fold. cbn [sample_options m_phisym]. split; [lia|]. cbn [INR]. field.
  - reflexivity.
  - exact F.
  - lra.
  - lra.
  - apply transparent_crossing; cbn; lra.
  - discriminate.
  - rewrite HL. exact Hk.
  - cbn [column_row]. rewrite HL. exact Hr.
  - lia.
  - rewrite HL. cbn [sample_options m_nx m_ny m_nrays]. lia.
  - pose proof (fs_back Rear (sample_options (2 * h * (5 * 2))) None air glass g k (as_seen Rear (a_theta r)) (a_phi r)) as Q. rewrite HL in Q. exact Q.
Qed.

(* The same for the angle of incidence alone, in the column it belongs to. *)
Theorem C184_incidence : forall outer fuel s o table n_abs inc trn texture z G g n m z0 a b k phi w x,
  sound_request s o table n_abs inc trn texture z -> angular_grid o g -> inclined true o z -> (3 + fuel <= n)%nat ->
  m_fold m (m_phisym o) -> Nat.even m = true -> flat_surface z0 a b (facing_surface s texture) -> 0 < a -> 0 < b ->
  smooth_crossing s o table inc trn -> probable_table table ->
  m_phi o = PhiNum phi -> in_its_column s (m_phisym o) g k (nudged (m_theta o)) (nudged phi) -> (0 < how_many_directions true o g)%nat ->
  flat_share s o table inc trn g k (nudged (m_theta o)) (nudged phi) w x ->
  let value u := share_in k w (RT_matrices (S outer) (3 + fuel) s true o table n_abs inc trn texture (rm_numbers z n u) G) in
  let rays := (how_many_directions true o g * (m_nx o * m_ny o))%nat in
  mean (rays * n) value x /\ forall eps, 0 < eps -> rarely_off (rays * n) value x eps (1 / (4 * INR rays * eps ^ 2)).
Proof.
  intros outer fuel s o table n_abs inc trn texture z G g n m z0 a b k phi w x HQ HG HI HN Hm He HF Ha Hb HC HP Hphi IC HD HX.
  pose proof (flat_average outer fuel s true o table n_abs inc trn texture z G g n m z0 a b HQ HG HI HN Hm He HF Ha Hb HC HP k
    (nudged (m_theta o)) (nudged phi) w x (seq 0 (how_many_directions true o g)) (proj1 IC)) as A. rewrite seq_length in A. apply A; [| |exact HX].
  - split; [apply seq_NoDup|]. split; [destruct (how_many_directions true o g); [lia|discriminate]|].
    intros i Hi. apply in_seq in Hi. exists (nudged (m_theta o)), (nudged phi). split; [|exact IC]. split; [lia|]. exists phi. auto.
  - intros i theta' phi' (_ & p & Ep & -> & ->) _. rewrite Hphi in Ep. injection Ep as <-. auto.
Qed.
Print Assumptions C184_incidence.

(* light from 30 degrees on glass *)
Definition tilted_options : rm_options :=
  {| m_wl := 1; m_pol := PolU; m_nx := 5; m_ny := 2; m_nrays := 1000; m_ntheta := 5; m_phisym := PI / 2; m_caz := 1 / 4; m_spacing := None;
     m_theta := PI / 6; m_phi := PhiNum 0; m_xlim := None; m_ylim := None; m_random_pos := true; m_random_angles := false |}.
Example C184_tilted : exists g s k, angular_grid tilted_options g /\ flat_surface 0 1 1 s /\ (0 < how_many_directions true tilted_options g)%nat /\
  in_its_column Front (PI / 2) g k (nudged (PI / 6)) (nudged 0) /\
  mean (how_many_directions true tilted_options g * (5 * 2) * 3)
    (fun u => share_in k (IntoBin k) (RT_matrices 1 3 Front true tilted_options None 0 air glass (s, s) (rm_numbers sample_draws 3 u) no_garbage))
    (fresnel_Rc (creal 1) (creal (3 / 2)) (PI / 6) PolU).
Proof.
  destruct C152_case as (g & h & s & l & A & B & C & D & E & F & _). pose proof (half_len g h C) as HL. pose proof PI_RGT_0 as PP. pose proof PI2_3_2 as P3. pose proof PI_4 as P4.
  assert (Hv : valid_request 5 (PI / 2) (1 / 4)) by (unfold valid_request; split; [lia|]; split; lra).
  assert (NT : nudged (PI / 6) = PI / 6) by (unfold nudged; destruct (Reqb (PI / 6) 0) eqn:Q; [apply Reqb_true in Q; lra|reflexivity]).
  assert (NP : nudged 0 = 1 / 10 ^ 4) by (unfold nudged; destruct (Reqb 0 0) eqn:Q; [reflexivity|apply Reqb_false in Q; lra]).
  assert (FP : fold_phi (1 / 10 ^ 4) (PI / 2) = 1 / 10 ^ 4).
  { apply (fold_phi_unique _ _ _ 4%Z 0%Z); lra. }
  assert (SQ : sound_request Front tilted_options None 0 air glass (s, s) sample_draws).
  { constructor; cbn [tilted_options m_wl m_pol m_nx m_ny m_nrays m_ntheta m_phisym m_caz facing_surface fst].
    - exact Hv.
    - exists 4%nat. unfold m_fold. split; [lia|]. cbn [INR]. field.
    - lia.
    - unfold air, glass, optical_medium, creal. cbn. lra.
    - destruct (Proof_Trace2.flat_facts 0 1 1 s F) as (_ & _ & _ & _ & Q & _); lra.
    - discriminate.
    - exact (sq_rnd _ _ _ _ _ _ _ _ (sample_sound 0 s F)). }
  destruct (C03_unique _ _ _ _ _ Hv B (PI / 6) (1 / 10 ^ 4) ltac:(lra) ltac:(lra)) as (k & _ & K1 & K2 & _).
  assert (Hk : (k < h)%nat) by (apply (bin_half _ _ _ _ g Hv B h k _ _ C K2); lra).
  assert (IC : in_its_column Front (PI / 2) g k (nudged (PI / 6)) (nudged 0)).
  { split; [rewrite HL; exact Hk|]. cbn [column_row as_seen]. rewrite NT, NP, FP. exact K2. }
  assert (HD : (0 < how_many_directions true tilted_options g)%nat).
  { unfold how_many_directions. rewrite HL. pose proof (n_angles_enough 1000 5 2 100 ltac:(lia) ltac:(lia)) as NA. cbn [tilted_options m_nrays m_nx m_ny].
    pose proof (ceil_enough (n_angles_of 1000 5 2) h D) as CE. destruct (Z.to_nat _); [exfalso; clear - CE NA; lia|lia]. }
  exists g, s, k. split; [exact B|]. split; [exact F|]. split; [exact HD|]. split; [exact IC|].
  refine (proj1 (C184_incidence 0 0 Front tilted_options None 0 air glass (s, s) sample_draws no_garbage g 3 4 0 1 1 k 0 (IntoBin k) _ SQ B _ ltac:(lia) _ eq_refl F Rlt_0_1 Rlt_0_1 _ _ eq_refl IC HD _)).
  - exists 0. split; [reflexivity|]. cbn [tilted_options m_theta m_phisym]. rewrite NT, NP, FP. split; lra.
  - unfold m_fold. cbn [tilted_options m_phisym]. split; [lia|]. cbn [INR]. field.
  - apply transparent_crossing; cbn; lra.
  - discriminate.
  - cbn [tilted_options m_theta]. rewrite NT. exact (fs_back Front tilted_options None air glass g k (PI / 6) (nudged 0)).
Qed.
