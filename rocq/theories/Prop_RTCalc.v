(* C182: RT from options, materials and surfaces to matrices. *)
From Coq Require Import Reals List Bool ZArith Lia Lra.
From Verif Require Import Base Lib Model_Angles Model_Ideal Model_MatMul Model_Optics Model_OpticsC Model_RayIface Model_RT Model_Surface Model_RTStruct Model_Trace Model_StackCalc Model_RTCalc
  Spec_Angles Spec_Matrix Spec_Optics Spec_OpticsC Spec_RayIface Spec_RT Spec_RTStruct Spec_Surface Spec_Trace Spec_StackRay Spec_RTCalc
  Proof_Angles Proof_AnglesProps Proof_RT Proof_RT2 Proof_RTRows Proof_RTCalc Proof_RTFlat Prop_Trace.
Import ListNotations.
Local Notation length := List.length.
Open Scope list_scope.
Open Scope R_scope.

(* ---------- C182 ---------- *)

(* Whatever the surfaces, media, lookup table and random numbers: once all rays have been followed to their end RT raises no exception, its
   matrices have one column for each angular bin on the side of incidence, and in each column that light was sent from the entries lie
   between 0 and 1 and add up, with the absorption in the layers of the surface, to 1.  Rays leaving straight up or down, or at an azimuth
   at the edge of a bin, are counted too. *)
Theorem C182_columns : forall outer fuel s only o table n_abs inc trn texture z G g out,
  sound_request s o table n_abs inc trn texture z -> angular_grid o g -> inclined only o z ->
  RT_matrices outer fuel s only o table n_abs inc trn texture z G = Some out ->
  let h := (length (g_av g) / 2)%nat in
  exists res, out = Ok res /\ has_shape (o_mat res) (length (g_av g)) h /\ has_shape (o_Amat res) n_abs h /\
    forall k theta phi, comes_from only o z g theta phi -> in_its_column s (m_phisym o) g k theta phi ->
      (forall r, (r < length (g_av g))%nat -> 0 <= entry (o_mat res) r k <= 1) /\
      0 <= col_total (o_Amat res) k <= 1 /\ col_total (o_mat res) k + col_total (o_Amat res) k = 1.
Proof.
  intros outer fuel s only o table n_abs inc trn texture z G g out HQ HG HI E.
  destruct (proj1 (C01_rows _ _ _ _ _ (sq_grid _ _ _ _ _ _ _ _ HQ) HG)) as [h [Hh _]]. rewrite (half_len g h Hh).
  destruct (columns outer fuel s only o table n_abs inc trn texture z G HQ g h HG Hh out HI E) as (res & -> & S1 & S2 & C). rewrite Hh.
  exists res. split; [reflexivity|]. split; [exact S1|]. split; [exact S2|]. exact C.
Qed.
Print Assumptions C182_columns.

(* With the default directions and enough rays to send some in each of them this is every column. *)
Theorem C182_every_column : forall outer fuel s o table n_abs inc trn texture z G g out,
  sound_request s o table n_abs inc trn texture z -> angular_grid o g -> m_random_angles o = false ->
  (length (g_av g) / 2 * (m_nx o * m_ny o) <= m_nrays o)%nat ->
  RT_matrices outer fuel s false o table n_abs inc trn texture z G = Some out ->
  exists res, out = Ok res /\ forall k, (k < length (g_av g) / 2)%nat -> col_total (o_mat res) k + col_total (o_Amat res) k = 1.
Proof.
  intros outer fuel s o table n_abs inc trn texture z G g out HQ HG HR HN E.
  destruct (proj1 (C01_rows _ _ _ _ _ (sq_grid _ _ _ _ _ _ _ _ HQ) HG)) as [h [Hh _]]. pose proof (half_len g h Hh) as HL.
  assert (HI : inclined false o z) by (unfold inclined; rewrite HR; discriminate).
  destruct (C182_columns outer fuel s false o table n_abs inc trn texture z G g out HQ HG HI E) as (res & -> & _ & _ & C).
  exists res. split; [reflexivity|]. rewrite HL in *. intros k Hk. destruct (sq_fold _ _ _ _ _ _ _ _ HQ) as [m M].
  destruct (column_source _ m _ _ _ g h s k (sq_grid _ _ _ _ _ _ _ _ HQ) M HG Hh Hk) as (k' & r & Hk' & Hr & B & _ & _ & F).
  apply (C k (a_theta r) (a_phi r)).
  - apply (cf_row false o z g k' r); auto; [lia|]. pose proof (sq_rays _ _ _ _ _ _ _ _ HQ). pose proof (n_angles_enough (m_nrays o) (m_nx o) (m_ny o) h ltac:(lia) HN). lia.
  - split; rewrite HL; [exact Hk|]. rewrite F. exact B.
Qed.
Print Assumptions C182_every_column.

(* a glass plate, 5 x 2 positions; light from below *)
Definition sample_options (rays : nat) : rm_options :=
  {| m_wl := 1; m_pol := PolS; m_nx := 5; m_ny := 2; m_nrays := rays; m_ntheta := 5; m_phisym := PI / 2; m_caz := 1 / 4; m_spacing := None;
     m_theta := 0; m_phi := PhiNum 0; m_xlim := None; m_ylim := None; m_random_pos := false; m_random_angles := false |}.
Definition sample_draws : rm_draws :=
  {| z_theta := fun _ => 1 / 2; z_phi := fun _ => 1 / 2; z_x := fun _ => 1 / 2; z_y := fun _ => 1 / 2; z_rnd := fun k _ => INR (k mod 10) / 10;
     z_xy := fun _ _ => (0, 0); z_seen := fun _ => 0%nat; z_hs := fun _ => 1 |}.
Definition air : material := fun _ => creal 1.
Definition glass : material := fun _ => creal (3 / 2).
Definition no_garbage : garbage := {| gb_out := fun _ _ => None; gb_frac := fun _ => None; gb_scale := fun _ => None |}.

Lemma sample_sound rays s : flat_surface 0 1 1 s -> sound_request Rear (sample_options rays) None 0 air glass (s, s) sample_draws.
Proof.
  intros F. pose proof PI_RGT_0 as PP. constructor; cbn [sample_options m_wl m_pol m_nx m_ny m_nrays m_ntheta m_phisym m_caz sample_draws z_rnd facing_surface snd].
  - unfold valid_request. split; [lia|]. split; lra.
  - exists 4%nat. unfold m_fold. split; [lia|]. cbn [INR]. field.
  - lia.
  - unfold air, glass, optical_medium, creal. cbn. lra.
  - destruct (Proof_Trace2.flat_facts 0 1 1 s F) as (_ & _ & _ & _ & E & _); try lra.
  - discriminate.
  - intros k _. pose proof (Nat.mod_upper_bound k 10 ltac:(lia)) as B. assert (INR (k mod 10) <= 9). { replace 9 with (INR 9) by (cbn; lra). apply le_INR. lia. } lra.
Qed.
(* the condition on crossings holds for transparent media *)
Lemma transparent_crossing s o inc trn : im (inc (m_wl o)) = 0 -> im (trn (m_wl o)) = 0 -> 0 < re (inc (m_wl o)) -> 0 < re (trn (m_wl o)) -> smooth_crossing s o None inc trn.
Proof.
  intros I1 I2 R1 R2 theta Ht. cbv zeta. set (a := above s inc trn (m_wl o)). set (b := beyond s inc trn (m_wl o)). intros E.
  assert (Q : 0 < re a /\ 0 < re b /\ im a = 0 /\ im b = 0) by (unfold a, b, above, beyond; clear - I1 I2 R1 R2; destruct s; tauto). destruct Q as (A1 & A2 & A3 & A4). clearbody a b.
  destruct a as [a a'], b as [b b']. cbn [re im] in *. subst a' b'. change {| re := a; im := 0 |} with (creal a). change {| re := b; im := 0 |} with (creal b).
  rewrite (Proof_OpticsC2.fresnel_Rc_real a b) by lra. destruct (Proof_Optics.fresnel_R_cases a b theta (m_pol o) A1 A2 ltac:(lra)) as [_ T]. rewrite T by lra.
  rewrite (Proof_Optics.calc_R_critical a b theta); lra.
Qed.

Example C182_case : exists g h s out, angular_grid (sample_options (h * (5 * 2))) g /\ length (g_av g) = (2 * h)%nat /\ (0 < h)%nat /\ flat_surface 0 1 1 s /\
  sound_request Rear (sample_options (h * (5 * 2))) None 0 air glass (s, s) sample_draws /\ inclined false (sample_options (h * (5 * 2))) sample_draws /\
  RT_matrices 1 3 Rear false (sample_options (h * (5 * 2))) None 0 air glass (s, s) sample_draws no_garbage = Some out.
Proof.
  destruct C152_case as (g & h & s & l & A & B & C & D & E & F & _).
  exists g, h, s. pose proof (sample_sound (h * (5 * 2)) s F) as SQ. assert (I : inclined false (sample_options (h * (5 * 2))) sample_draws) by discriminate.
  destruct (flat_ends 0 0 Rear (sample_options (h * (5 * 2))) None 0 air glass (s, s) sample_draws 0 1 1 SQ F ltac:(lra) ltac:(lra) (transparent_crossing Rear (sample_options (h * (5 * 2))) air glass eq_refl eq_refl Rlt_0_1 ltac:(cbn; lra)) false no_garbage g B I) as [out O].
  exists out. auto 10.
Qed.
