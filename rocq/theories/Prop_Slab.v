(* C149, C150: a bulk layer between plane interfaces computed with transfer matrices. *)
From Coq Require Import Reals List ZArith Bool Lia Lra String.
From Verif Require Import Base Lib Model_Angles Spec_Angles Model_Ideal Model_MatMul Model_TMM Model_Slab
  Spec_Matrix Spec_MatMul Spec_TMM Spec_Slab Proof_IdealProps Proof_RAT Proof_RAT2 Proof_RAT3 Proof_TMM Proof_TMM2 Proof_TMM4 Proof_Slab3 Prop_MatMul.
Import ListNotations.
Local Notation length := List.length.
Open Scope list_scope.
Open Scope R_scope.

(* ---------- C149 ---------- *)

(* With an even number of symmetry sectors the light stays in one direction and its mirror image: the reported R, T and bulk
   absorption, completed by what the light left in the bulk would still have given, are the incoherent slab formulas for the
   incidence bin's angle outside and the angle of the bin that Snell's law leads to inside. *)
Theorem C149_slab : forall n phi_sym c sp g h m M (wls : list (solver M * (M -> R))) mem a0 a1 f0 b0 f1
    theta phi thick thresh alphas prof fuel st o w SV idx,
  valid_request n phi_sym c -> make_angle_vector n phi_sym c sp = Ok g -> length (g_av g) = (2 * h)%nat ->
  m_fold m phi_sym -> Nat.even m = true -> 1 / 10 ^ 10 <= phi_sym ->
  0 <= theta < PI / 2 -> 0 <= phi -> phi <> phi_sym -> length wls = length alphas ->
  tmm_stored wls mem a0 Front g phi_sym = Ok f0 -> tmm_stored wls mem a0 Rear g phi_sym = Ok b0 ->
  tmm_stored wls mem a1 Front g phi_sym = Ok f1 ->
  calculate_RAT n phi_sym c sp theta (PhiNum phi) alphas thick f0 b0 f1 thresh prof fuel = Ok (Some (st, o)) ->
  nth_error wls w = Some (SV, idx) -> 0 < idx (ar_inc a0) -> 0 < idx (ar_trn a0) -> 0 < idx (ar_inc a1) -> 0 < idx (ar_trn a1) ->
  exists k0 ri i0 j0 z R0 T0 A0, nth_error (g_av g) k0 = Some ri /\ row_is g k0 i0 j0 /\ (k0 < h)%nat /\
    in_bin_left (g_theta_intv g) i0 theta /\ in_bin_left (phi_edges_of g i0) j0 (phi + IZR z * phi_sym) /\
    tmm_entry SV mem a0 Front (a_theta ri) = Ok (R0, T0, A0) /\
    (idx (ar_inc a0) * sin (a_theta ri) < idx (ar_trn a0) -> exists psi k rk rj Rb Tb Ab R1 T1 A1,
       refracts (idx (ar_inc a0)) (idx (ar_trn a0)) (a_theta ri) psi /\
       nth_error (g_av g) k = Some rk /\ bin_contains g k (PI - psi) (a_phi ri) /\ a_theta rj = PI - a_theta rk /\
       tmm_entry SV mem a0 Rear (a_theta rj) = Ok (Rb, Tb, Ab) /\ tmm_entry SV mem a1 Front (a_theta rj) = Ok (R1, T1, A1) /\
       (kept (idx (ar_trn a0)) (idx (ar_inc a0)) (a_theta rj) Tb -> kept (idx (ar_inc a1)) (idx (ar_trn a1)) (a_theta rj) T1 ->
        let D := exp (- (nth w alphas 0 * thick / cos (a_theta rj))) in
        round D R1 Rb <> 1 -> exists left N, left <= thresh /\ left = T0 * round D R1 Rb ^ N /\
          R_at o w + left * (D * R1 * D * Tb / (1 - round D R1 Rb)) = slab_R R0 T0 Rb Tb R1 D /\
          T_at o w + left * (D * T1 / (1 - round D R1 Rb)) = slab_T T0 Rb R1 T1 D /\
          A_bulk_at o w + left * (((1 - D) + D * R1 * (1 - D)) / (1 - round D R1 Rb)) = slab_A T0 Rb R1 D)).
Proof.
  intros n phi_sym c sp g h m M wls mem a0 a1 f0 b0 f1 theta phi thick thresh alphas prof fuel st o w SV idx
    Hv Hg Hh Hm He Hphi Hth Hp0 Hp1 Hnw Hf0 Hb0 Hf1 Hrun Hw Hn1 Hn2 Hn3 Hn4.
  destruct (slab_run n phi_sym c sp g h m Hv Hg Hh Hm He Hphi M wls mem a0 f0 b0 f1 theta phi thick thresh alphas prof fuel st o
    Hth Hp0 Hp1 Hnw Hf0 Hb0 (stored_shape n phi_sym c sp g h Hv Hg Hh M wls mem a1 Front f1 Hf1) Hrun w SV idx Hw Hn1 Hn2)
    as (k0 & ri & i0 & j0 & z & R0 & T0 & A0 & H1 & H2 & H3 & H4 & H5 & H6 & H7).
  exists k0, ri, i0, j0, z, R0, T0, A0. do 6 (split; auto). intros HS.
  destruct (H7 HS) as (psi & k & rk & j & rj & Rb & Tb & Ab & K1 & K2 & K3 & K4 & K5 & K6 & K7 & K8 & K9).
  destruct (tmm_back n phi_sym c sp g h m Hv Hg Hh Hm He Hphi M wls mem a1 f1 w SV idx j rj Hf1 Hw K4 K5 Hn3 Hn4)
    as (R1 & T1 & A1 & B1 & B2).
  exists psi, k, rk, rj, Rb, Tb, Ab, R1, T1, A1. do 6 (split; auto).
Qed.
Print Assumptions C149_slab.

(* the same above a perfect mirror *)
Theorem C149_slab_on_mirror : forall n phi_sym c sp g h m M (wls : list (solver M * (M -> R))) mem a0 f0 b0 fm
    theta phi thick thresh alphas prof fuel st o w SV idx,
  valid_request n phi_sym c -> make_angle_vector n phi_sym c sp = Ok g -> length (g_av g) = (2 * h)%nat ->
  m_fold m phi_sym -> Nat.even m = true -> 1 / 10 ^ 10 <= phi_sym ->
  0 <= theta < PI / 2 -> 0 <= phi -> phi <> phi_sym -> length wls = length alphas ->
  tmm_stored wls mem a0 Front g phi_sym = Ok f0 -> tmm_stored wls mem a0 Rear g phi_sym = Ok b0 ->
  mirror_matrix g phi_sym Front = Ok fm ->
  calculate_RAT n phi_sym c sp theta (PhiNum phi) alphas thick f0 b0 (once fm) thresh prof fuel = Ok (Some (st, o)) ->
  nth_error wls w = Some (SV, idx) -> 0 < idx (ar_inc a0) -> 0 < idx (ar_trn a0) ->
  exists k0 ri i0 j0 z R0 T0 A0, nth_error (g_av g) k0 = Some ri /\ row_is g k0 i0 j0 /\ (k0 < h)%nat /\
    in_bin_left (g_theta_intv g) i0 theta /\ in_bin_left (phi_edges_of g i0) j0 (phi + IZR z * phi_sym) /\
    tmm_entry SV mem a0 Front (a_theta ri) = Ok (R0, T0, A0) /\
    (idx (ar_inc a0) * sin (a_theta ri) < idx (ar_trn a0) -> exists psi k rk rj Rb Tb Ab,
       refracts (idx (ar_inc a0)) (idx (ar_trn a0)) (a_theta ri) psi /\
       nth_error (g_av g) k = Some rk /\ bin_contains g k (PI - psi) (a_phi ri) /\ a_theta rj = PI - a_theta rk /\
       tmm_entry SV mem a0 Rear (a_theta rj) = Ok (Rb, Tb, Ab) /\
       (kept (idx (ar_trn a0)) (idx (ar_inc a0)) (a_theta rj) Tb ->
        let D := exp (- (nth w alphas 0 * thick / cos (a_theta rj))) in
        D * D * Rb <> 1 -> exists left N, left <= thresh /\ left = T0 * (D * D * Rb) ^ N /\
          R_at o w + left * (D * D * Tb / (1 - D * D * Rb)) = R0 + T0 * (D * D) * Tb / (1 - D * D * Rb) /\
          T_at o w = 0 /\
          A_bulk_at o w + left * ((1 - D * D) / (1 - D * D * Rb)) = T0 * (1 - D * D) / (1 - D * D * Rb))).
Proof.
  intros n phi_sym c sp g h m M wls mem a0 f0 b0 fm theta phi thick thresh alphas prof fuel st o w SV idx
    Hv Hg Hh Hm He Hphi Hth Hp0 Hp1 Hnw Hf0 Hb0 Hf1 Hrun Hw Hn1 Hn2.
  destruct (mirror_shape n phi_sym c sp g h m Hv Hg Hh Hm He (length wls) fm Hf1) as [S1 S2].
  destruct (slab_run n phi_sym c sp g h m Hv Hg Hh Hm He Hphi M wls mem a0 f0 b0 (once fm) theta phi thick thresh alphas prof fuel st o
    Hth Hp0 Hp1 Hnw Hf0 Hb0 S1 Hrun w SV idx Hw Hn1 Hn2)
    as (k0 & ri & i0 & j0 & z & R0 & T0 & A0 & H1 & H2 & H3 & H4 & H5 & H6 & H7).
  exists k0, ri, i0, j0, z, R0, T0, A0. do 6 (split; auto). intros HS.
  destruct (H7 HS) as (psi & k & rk & j & rj & Rb & Tb & Ab & K1 & K2 & K3 & K4 & K5 & K6 & K7 & K8 & K9).
  exists psi, k, rk, rj, Rb, Tb, Ab. do 5 (split; auto). intros HK D HD.
  assert (HR : forall x y, Spec_Slab.round x 1 y = x * x * y) by (intros; unfold Spec_Slab.round; ring).
  destruct (K9 HK 1 0 (S2 w j K4)) as (left & N & L1 & L2 & L3 & L4 & L5).
  { fold D. rewrite HR. auto. }
  fold D in L2, L3, L4, L5. cbv [slab_R slab_T slab_A] in *. rewrite HR in *.
  exists left, N. split; auto. split; auto.
  replace (D * 1 * D) with (D * D) in L3 by ring. split; auto. split.
  - transitivity (T_at o w + left * (D * 0 / (1 - D * D * Rb))); [|rewrite L4]; field; lra.
  - replace (1 - D + D * 1 * (1 - D)) with (1 - D * D) in L5 by ring. auto.
Qed.
Print Assumptions C149_slab_on_mirror.

(* ---------- C150 ---------- *)

(* From the solver to the result: if the solver accounts for all light, plane interfaces around an absorbing bulk - the back
   one also replaced by a mirror or a Lambertian reflector - give a run that ends, all quantities are fractions, and they add
   up to one with what is left in the bulk, at most the threshold. *)
Theorem C150_energy : forall n phi_sym c sp g h m M (wls : list (solver M * (M -> R))) mem a0 f0 b0 f1
    theta phi_in thick thresh alphas prof eps,
  valid_request n phi_sym c -> make_angle_vector n phi_sym c sp = Ok g -> length (g_av g) = (2 * h)%nat ->
  m_fold m phi_sym -> relabel_ok n m g -> 1 / 10 ^ 10 <= phi_sym -> good_direction phi_sym theta phi_in ->
  length wls = length alphas -> 0 < eps -> (forall x, In x alphas -> eps <= x * thick) -> 0 < thresh ->
  (ar_pol a0 = "s" \/ ar_pol a0 = "p" \/ ar_pol a0 = "u")%string ->
  (forall SV idx, In (SV, idx) wls -> balances SV /\ 0 < idx (ar_inc a0) /\ 0 < idx (ar_trn a0) /\
     all_kept SV mem idx a0 Front g h /\ all_kept SV mem idx a0 Rear g h) ->
  tmm_stored wls mem a0 Front g phi_sym = Ok f0 -> tmm_stored wls mem a0 Rear g phi_sym = Ok b0 ->
  ((exists a1, tmm_stored wls mem a1 Front g phi_sym = Ok f1 /\ (ar_pol a1 = "s" \/ ar_pol a1 = "p" \/ ar_pol a1 = "u")%string /\
      forall SV idx, In (SV, idx) wls -> 0 < idx (ar_inc a1) /\ 0 < idx (ar_trn a1) /\ all_kept SV mem idx a1 Front g h) \/
   (exists fm, mirror_matrix g phi_sym Front = Ok fm /\ f1 = once fm /\
      (Nat.even m = true \/ forall i, (i < 2 * n)%nat -> Nat.even (length (phi_edges_of g i) - 1) = true)) \/
   f1 = once (lambertian_matrix g)) ->
  exists st o, calculate_RAT n phi_sym c sp theta phi_in alphas thick f0 b0 f1 thresh prof
                 (Z.to_nat (Zceil (ln thresh / (- 2 * eps)) + 1)) = Ok (Some (st, o)) /\
    forall w, (w < length alphas)%nat ->
      0 <= R_at o w /\ 0 <= T_at o w /\ 0 <= A_bulk_at o w /\ 0 <= A_front_at st w /\ 0 <= A_back_at st w /\
      R_at o w + T_at o w + A_bulk_at o w + A_front_at st w + A_back_at st w + still_travelling st w = 1 /\
      0 <= still_travelling st w <= thresh.
Proof.
  intros n phi_sym c sp g h m M wls mem a0 f0 b0 f1 theta phi_in thick thresh alphas prof eps Hv Hg Hh Hm Hok Hphi Hd Hnw He Ha Ht
    Hp Hw Hf0 Hb0 H1.
  assert (POL : forall a : tmm_args M, (ar_pol a = "s" \/ ar_pol a = "p" \/ ar_pol a = "u")%string -> in_sp (ar_pol a) = true \/ ar_pol a = "u"%string).
  { intros a [ -> | [ -> | -> ] ]; [left; reflexivity|left; reflexivity|right; reflexivity]. }
  destruct (stored_conserves n phi_sym c sp g h M wls mem a0 Front f0 Hv Hg Hh Hphi (POL a0 Hp)) as [C0 P0]; auto.
  { intros SV idx Hin. destruct (Hw SV idx Hin) as [B1 [B2 [B3 [B4 B5]]]]. auto. }
  destruct (stored_conserves n phi_sym c sp g h M wls mem a0 Rear b0 Hv Hg Hh Hphi (POL a0 Hp)) as [Cb Pb]; auto.
  { intros SV idx Hin. destruct (Hw SV idx Hin) as [B1 [B2 [B3 [B4 B5]]]]. auto. }
  assert (X1 : file_conserves (length wls) h f1 /\ file_passive (length wls) h f1).
  { destruct H1 as [[a1 [E1 [E2 E3]]]|[[fm [E1 [-> E2]]]| ->]].
    - apply (stored_conserves n phi_sym c sp g h M wls mem a1 Front f1 Hv Hg Hh Hphi (POL a1 E2)); auto.
      intros SV idx Hin. destruct (Hw SV idx Hin) as [B1 _]. destruct (E3 SV idx Hin) as [B2 [B3 B4]]. auto.
    - apply (mirror_conserves n phi_sym c sp g h m); auto.
    - apply (lambertian_conserves n phi_sym c sp g h); auto. }
  destruct X1 as [C1 P1]. rewrite Hnw in *.
  destruct (C12_bulk n phi_sym c sp g h m theta phi_in alphas thick f0 b0 f1 thresh prof eps Hv Hg Hh Hm Hok Hd He Ha Ht P0 Pb P1)
    as [[st o] E].
  exists st, o. split; auto. intros w Hwl.
  destruct (C10_ex n phi_sym c sp g h m theta phi_in alphas thick f0 b0 f1 thresh prof
      (Z.to_nat (Zceil (ln thresh / (- 2 * eps)) + 1)) st o Hv Hg Hh Hm Hok Hd) with (w := w)
    as [A1 [A2 [A3 [A4 [A5 [A6 _]]]]]]; auto.
  { intros x Hx. specialize (Ha x Hx). lra. }
  destruct (C09_ex n phi_sym c sp g h m theta phi_in alphas thick f0 b0 f1 thresh prof
    (Z.to_nat (Zceil (ln thresh / (- 2 * eps)) + 1)) Hv Hg Hh Hm Hok Hd C0 Cb C1) as [r [Er Q]].
  rewrite E in Er. injection Er as <-. destruct (Q st o eq_refl w Hwl) as [Q1 Q2]. auto 12.
Qed.
Print Assumptions C150_energy.

(* one absorbing layer on either side of the bulk *)
Definition taking (k : nat) : list R := match k with O => [] | S j => 1 / 4 :: repeat 0 j end.
Definition thin : solver nat :=
  let answer (st : ostack nat) := let k := length (o_layers st) in
    mk_sol (1 / 2) (match k with O => 1 / 2 | _ => 1 / 4 end) (0 :: taking k ++ [0]) (fun _ => zero_coefs) (fun _ => 0) in
  mk_solver (fun _ st _ => Ok (answer st)) (fun _ st _ _ => Ok (answer st)) (fun _ => 0).

Lemma thin_balances : balances thin.
Proof.
  assert (B : forall st : ostack nat, let k := length (o_layers st) in
    balanced k (mk_sol (1 / 2) (match k with O => 1 / 2 | _ => 1 / 4 end) (0 :: taking k ++ [0]) (fun _ => zero_coefs) (fun _ => 0)) /\
    0 <= 1 / 2 /\ 0 <= match k with O => 1 / 2 | _ => 1 / 4 end).
  { intros st k. assert (LT : length (taking k) = k) by (destruct k; cbn [taking length]; [auto|rewrite repeat_length; auto]).
    assert (NT : forall x, In x (taking k) -> 0 <= x).
    { destruct k; cbn [taking]; [intros x []|]. intros x [<-|Hx]; [lra|]. apply repeat_spec in Hx. lra. }
    split; [|destruct k; lra]. split; [|split]; cbn [s_abs s_R s_T].
    - cbn [length]. rewrite app_length. cbn [length]. lia.
    - intros x [<-|Hx]; [lra|]. apply in_app_iff in Hx. destruct Hx as [Hx|[<-|[]]]; [auto|lra].
    - unfold inner. cbn [tl]. rewrite removelast_last. destruct k; cbn [taking rsum]; [lra|]. rewrite rsum_repeat. lra. }
  split.
  - intros pol st th s E. injection E as <-. apply B.
  - intros pol st cl th s E. injection E as <-. apply B.
Qed.

Definition air_film_bulk : tmm_args nat := mk_args 0%nat [(1%nat, 100)] 2%nat true None "u".
Definition bulk_film_air : tmm_args nat := mk_args 2%nat [(1%nat, 50)] 0%nat true None "u".

Lemma thin_entry a s theta : ar_coherent a = true -> ar_pol a = "u"%string -> exists e, tmm_entry thin [] a s theta = Ok e.
Proof.
  intros Ha Hp. unfold tmm_entry. rewrite Hp. cbn [String.eqb Ascii.eqb Bool.eqb]. unfold tmm_one, calculate, coh_for, solve, tmm_opts. rewrite Ha.
  cbn [p_coherent p_pol rbind]. rewrite s_sp, p_sp. cbn [thin sv_coh rlift rbind]. eauto.
Qed.

Lemma thin_kept a s g h n phi_sym c sp : valid_request n phi_sym c -> make_angle_vector n phi_sym c sp = Ok g -> length (g_av g) = (2 * h)%nat ->
  all_kept thin [] (fun _ => 1) a s g h.
Proof.
  intros Hv Hg Hh i r Rp Tp Al Hi Hr _. left. destruct (channel_theta n phi_sym c sp g h Hv Hg Hh s i r Hi Hr) as [_ T].
  rewrite Rmult_1_l, <- sin_PI2. apply sin_increasing_1; lra.
Qed.

(* both theorems apply to a film on either side of a bulk layer, for two wavelengths *)
Example C150_case : exists g h f0 b0 f1 st o, valid_request 5 (PI / 2) (1 / 4) /\
  make_angle_vector 5 (PI / 2) (1 / 4) SpSin = Ok g /\ length (g_av g) = (2 * h)%nat /\ (0 < h)%nat /\
  m_fold 4 (PI / 2) /\ relabel_ok 5 4 g /\ 1 / 10 ^ 10 <= PI / 2 /\ good_direction (PI / 2) (PI / 6) (PhiNum 1) /\
  (forall SV idx, In (SV, idx) [(thin, fun _ => 1); (thin, fun _ => 1)] -> balances SV /\ 0 < idx 0%nat /\ 0 < idx 2%nat /\
     all_kept SV [] idx air_film_bulk Front g h /\ all_kept SV [] idx air_film_bulk Rear g h /\ all_kept SV [] idx bulk_film_air Front g h) /\
  tmm_stored [(thin, fun _ => 1); (thin, fun _ => 1)] [] air_film_bulk Front g (PI / 2) = Ok f0 /\
  tmm_stored [(thin, fun _ => 1); (thin, fun _ => 1)] [] air_film_bulk Rear g (PI / 2) = Ok b0 /\
  tmm_stored [(thin, fun _ => 1); (thin, fun _ => 1)] [] bulk_film_air Front g (PI / 2) = Ok f1 /\
  calculate_RAT 5 (PI / 2) (1 / 4) SpSin (PI / 6) (PhiNum 1) [1; 2] 1 f0 b0 f1 (1 / 1000) true
    (Z.to_nat (Zceil (ln (1 / 1000) / (- 2 * 1)) + 1)) = Ok (Some (st, o)).
Proof.
  destruct sample_grid as [g [h [A [B [C [D [E [F G]]]]]]]]. pose proof PI2_3_2.
  assert (HP : 1 / 10 ^ 10 <= PI / 2) by (unfold Rdiv in *; lra).
  assert (KK : forall SV (idx : nat -> R), In (SV, idx) [(thin, fun _ => 1); (thin, fun _ => 1)] -> balances SV /\ 0 < idx 0%nat /\ 0 < idx 2%nat /\
     all_kept SV [] idx air_film_bulk Front g h /\ all_kept SV [] idx air_film_bulk Rear g h /\ all_kept SV [] idx bulk_film_air Front g h).
  { intros SV idx [Q|[Q|[]]]; injection Q as <- <-; (split; [apply thin_balances|]); (split; [lra|]); (split; [lra|]);
      repeat split; eapply thin_kept; eauto. }
  assert (EX : forall a s, (a = air_film_bulk \/ a = bulk_film_air) -> exists f, tmm_stored [(thin, fun _ => 1); (thin, fun _ => 1)] [] a s g (PI / 2) = Ok f).
  { intros a s Ha. apply (stored_exists 5 (PI / 2) (1 / 4) SpSin g h); auto.
    intros SV idx [Q|[Q|[]]]; injection Q as <- <-; (split; [lra|]); (split; [lra|]); (split; [eapply thin_kept; eauto|]);
      intros theta; apply thin_entry; destruct Ha as [ -> | -> ]; reflexivity. }
  destruct (EX air_film_bulk Front) as [f0 E0]; auto. destruct (EX air_film_bulk Rear) as [b0 Eb]; auto.
  destruct (EX bulk_film_air Front) as [f1 E1]; auto.
  destruct (C150_energy 5 (PI / 2) (1 / 4) SpSin g h 4 nat [(thin, fun _ => 1); (thin, fun _ => 1)] [] air_film_bulk f0 b0 f1
    (PI / 6) (PhiNum 1) 1 (1 / 1000) [1; 2] true 1) as [st [o [R _]]]; auto; try lra.
  { intros x [<-|[<-|[]]]; lra. }
  { intros SV idx Q. destruct (KK SV idx Q) as [Q1 [Q2 [Q3 [Q4 [Q5 Q6]]]]]. auto. }
  { left. exists bulk_film_air. split; auto. split; [auto|]. intros SV idx Q. destruct (KK SV idx Q) as [Q1 [Q2 [Q3 [Q4 [Q5 Q6]]]]]. auto. }
  exists g, h, f0, b0, f1, st, o. auto 20.
Qed.
(* C150_case also instantiates C149_slab; with a mirror at the back: *)
Example C149_mirror_case : exists g h f0 b0 fm st o, make_angle_vector 5 (PI / 2) (1 / 4) SpSin = Ok g /\
  length (g_av g) = (2 * h)%nat /\ (0 < h)%nat /\ m_fold 4 (PI / 2) /\
  tmm_stored [(thin, fun _ => 1); (thin, fun _ => 1)] [] air_film_bulk Front g (PI / 2) = Ok f0 /\
  tmm_stored [(thin, fun _ => 1); (thin, fun _ => 1)] [] air_film_bulk Rear g (PI / 2) = Ok b0 /\
  mirror_matrix g (PI / 2) Front = Ok fm /\
  calculate_RAT 5 (PI / 2) (1 / 4) SpSin (PI / 6) (PhiNum 1) [1; 2] 1 f0 b0 (once fm) (1 / 1000) true
    (Z.to_nat (Zceil (ln (1 / 1000) / (- 2 * 1)) + 1)) = Ok (Some (st, o)).
Proof.
  destruct C150_case as [g [h [f0 [b0 [f1 [_ [_ [A [B [C [D [E [F [HP [G [KK [E0 [Eb _]]]]]]]]]]]]]]]]]].
  destruct (C05_ex 5 (PI / 2) (1 / 4) SpSin g 4 Front A B E) as [h' [fm [_ [Em _]]]]; [left; auto|].
  destruct (C150_energy 5 (PI / 2) (1 / 4) SpSin g h 4 nat [(thin, fun _ => 1); (thin, fun _ => 1)] [] air_film_bulk f0 b0
    (once (fm, [repeat 0 h'])) (PI / 6) (PhiNum 1) 1 (1 / 1000) [1; 2] true 1) as [st [o [R _]]]; auto; try lra.
  { intros x [<-|[<-|[]]]; lra. }
  { intros SV idx Q. destruct (KK SV idx Q) as [Q1 [Q2 [Q3 [Q4 [Q5 Q6]]]]]. auto. }
  { right. left. exists (fm, [repeat 0 h']). split; auto. }
  exists g, h, f0, b0, (fm, [repeat 0 h']), st, o. auto 12.
Qed.
