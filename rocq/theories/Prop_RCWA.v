(* Properties of the RCWA redistribution matrices: C55-C58, C65, C100-C102. *)
From Coq Require Import Reals List ZArith Bool String Lia Lra.
From Verif Require Import Base Lib Model_Angles Proof_Angles Spec_Angles Model_Ideal Model_TMM Model_Diff Spec_Diff Spec_TMM
  Proof_TMM3 Proof_TMM4 Model_RCWA Spec_RCWA Proof_RCWA Proof_RCWA2 Proof_RCWA3.
Import ListNotations.
Local Notation length := List.length.
Open Scope R_scope.

(* ---------- C55 ---------- *)

(* Missing: the empty string and strings of two characters, see below. *)
Theorem C55_pol_partial : forall x, x <> ""%string -> String.length x <> 2%nat ->
  (x = "s" /\ process_pol (PolStr x) = Ok (PolPair 1 0))%string \/ (x = "p" /\ process_pol (PolStr x) = Ok (PolPair 0 1))%string \/
  (x = "u" /\ exists a, a ^ 2 + a ^ 2 = 1 /\ 0 < a /\ process_pol (PolStr x) = Ok (PolPair a a))%string \/
  (x <> "s" /\ x <> "p" /\ x <> "u" /\ process_pol (PolStr x) = Err ValueError)%string.
Proof. exact pol_cases. Qed.
Print Assumptions C55_pol_partial.

Example C55_pol_partial_ex : process_pol (PolStr "TE mode") = Err ValueError.
Proof. reflexivity. Qed.

(* The empty string is accepted and means no light at all; any two characters are taken for amplitudes. *)
Theorem C55_pol_refuted : process_pol (PolStr "") = Ok (PolPair 0 0) /\
  forall x, String.length x = 2%nat -> process_pol (PolStr x) = Ok (PolChars x).
Proof. split; [reflexivity|]. intros x H. unfold process_pol. rewrite H. reflexivity. Qed.
Print Assumptions C55_pol_refuted.

Example C55_pol_refuted_ex : process_pol (PolStr "TE") = Ok (PolChars "TE").
Proof. reflexivity. Qed.

(* ---------- C56 ---------- *)

(* Front incidence, and rear incidence on a grid with a single polar bin: the column of every incidence bin
   whose reflected orders carry power is the sum of its orders, each in the bin of its direction. *)
Theorem C56_columns_partial : forall n phi_sym c sp g h wl n_in n_out g1 g2 s basis n_layers solve,
  valid_request n phi_sym c -> make_angle_vector n phi_sym c sp = Ok g -> length (g_av g) = (2 * h)%nat -> 1 / 10 ^ 10 <= phi_sym ->
  0 < wl -> 0 < n_in -> 0 < n_out -> s = Front \/ n = 1%nat ->
  exists cols A, rcwa_matrix s g wl n_in n_out phi_sym basis g1 g2 n_layers solve = Ok (cols, A) /\ length cols = h /\ length A = h /\
    forall i r, (i < h)%nat -> nth_error (g_av g) (channel_row s h i) = Some r ->
      let theta := incoming s (a_theta r) in let phi := a_phi r in let o := solve theta phi in
      let KR := kept n_in n_in wl theta phi g1 g2 basis (q_Rp o) in
      let KT := kept n_out n_in wl theta phi g1 g2 basis (q_Tp o) in
      nth i A [] = flip_rear s (q_A o) /\
      (length (q_Rp o) = length basis -> length (q_Tp o) = length basis -> rsum KR <> 0 ->
       exists col, nth i cols [] = map Some col /\
         distribution g s h phi_sym wl n_in n_out g1 g2 theta phi basis (1 - q_T o - rsum (q_A o)) KR KT col).
Proof. exact rcwa_columns. Qed.
Print Assumptions C56_columns_partial.

(* With all the transmitted power in the orders kept, column and absorption add up to 1. *)
Theorem C56_energy_partial : forall g s h phi_sym wl n_in n_out g1 g2 theta phi basis T A KR KT col,
  distribution g s h phi_sym wl n_in n_out g1 g2 theta phi basis (1 - T - rsum A) KR KT col -> rsum KT = T ->
  rsum col + rsum (flip_rear s A) = 1.
Proof.
  intros g s h phi_sym wl n_in n_out g1 g2 theta phi basis T A KR KT col (_ & E & _) HT. rewrite E.
  replace (rsum (flip_rear s A)) with (rsum A) by (destruct s; cbn [flip_rear]; rewrite ?rsum_rev; auto). lra.
Qed.
Print Assumptions C56_energy_partial.

Example C56_columns_partial_ex : exists g h cols A col,
  make_angle_vector 3 (PI / 2) 1 SpSin = Ok g /\ length (g_av g) = (2 * h)%nat /\ 
  rcwa_matrix Front g 600 1 2 (PI / 2) [(0, 0)%Z] (1 / 500, 0) (0, 1 / 500) 1 (fun _ _ => mk_rout (1 / 4) [1 / 4] [1 / 4] [1 / 4]) = Ok (cols, A) /\
  nth 0 cols [] = map Some col /\ rsum col + rsum (nth 0 A []) = 1.
Proof.
  pose proof PI_RGT_0 as HPI. pose proof tiny_small as TS. pose proof PI2_1 as P1.
  assert (Hv : valid_request 3 (PI / 2) 1) by (split; [lia|lra]).
  destruct (a_grid 3 (PI / 2) 1 Hv) as (g & h & Hg & Hh & Hh0 & Hk & Hrow). rewrite ring_count_1 in Hrow by lia.
  destruct (Hrow 0%nat ltac:(lia)) as (r & Hr & _).
  destruct (C56_columns_partial 3 (PI / 2) 1 SpSin g h 600 1 2 (1 / 500, 0) (0, 1 / 500) Front [(0, 0)%Z] 1
     (fun _ _ => mk_rout (1 / 4) [1 / 4] [1 / 4] [1 / 4]) Hv Hg Hh ltac:(lra) ltac:(lra) ltac:(lra) ltac:(lra) (or_introl eq_refl))
     as (cols & A & E & _ & _ & H).
  destruct (H 0%nat r Hh0 Hr) as [HA HC]. cbn [q_Rp q_Tp q_T q_A incoming flip_rear] in HA, HC.
  assert (T : 1 / 10 ^ 16 <= 1 / 4).
  { unfold Rdiv. rewrite !Rmult_1_l. apply Rinv_le_contravar; [lra|]. apply Rle_trans with (10 ^ 1); [lra|]. apply Rle_pow; [lra|lia]. }
  assert (Q : length2 (order_freq 1 600 (a_theta r) (a_phi r) (1 / 500, 0) (0, 1 / 500) (0, 0)%Z) < 1 / 600).
  { pose proof (f_length 3 (PI / 2) 1 SpSin g h Hv Hg Hh 0 r Hh0 Hr 600 1 ltac:(lra) ltac:(lra)) as [_ [_ Q]].
    replace (order_freq 1 600 (a_theta r) (a_phi r) (1 / 500, 0) (0, 1 / 500) (0, 0)%Z) with (f_inc 600 1 (a_theta r) (a_phi r)); auto.
    unfold order_freq, f_inc. cbn [fst snd]. f_equal; ring. }
  assert (KR : kept 1 1 600 (a_theta r) (a_phi r) (1 / 500, 0) (0, 1 / 500) [(0, 0)%Z] [1 / 4] = [1 / 4]).
  { unfold kept, kept_power. cbn [map2]. destruct (Rlt_dec _ _); [|lra]. destruct (Rle_dec _ _); [auto|lra]. }
  assert (KT : kept 2 1 600 (a_theta r) (a_phi r) (1 / 500, 0) (0, 1 / 500) [(0, 0)%Z] [1 / 4] = [1 / 4]).
  { unfold kept, kept_power. cbn [map2]. destruct (Rlt_dec _ _); [|lra]. destruct (Rle_dec _ _); [auto|lra]. }
  rewrite KR, KT in HC. destruct HC as (col & C1 & C2); auto. { cbn [rsum]. lra. }
  exists g, h, cols, A, col. do 4 (split; auto). rewrite HA. apply (C56_energy_partial _ _ _ _ _ _ _ _ _ _ _ _ _ _ _ _ _ C2). cbn [rsum]. lra.
Qed.

(* Both sides, any grid: shapes and absorption. *)
Theorem C56_absorption : forall n phi_sym c sp g h wl n_in n_out g1 g2 s basis n_layers solve,
  valid_request n phi_sym c -> make_angle_vector n phi_sym c sp = Ok g -> length (g_av g) = (2 * h)%nat -> 1 / 10 ^ 10 <= phi_sym ->
  0 < wl -> 0 < n_in -> 0 < n_out ->
  exists cols A, rcwa_matrix s g wl n_in n_out phi_sym basis g1 g2 n_layers solve = Ok (cols, A) /\ length cols = h /\ length A = h /\
    (forall i, (i < h)%nat -> length (nth i cols []) = (2 * h)%nat) /\
    forall i r, (i < h)%nat -> nth_error (g_av g) (channel_row s h i) = Some r ->
      nth i A [] = flip_rear s (q_A (solve (incoming s (a_theta r)) (a_phi r))).
Proof. exact rcwa_absorption. Qed.
Print Assumptions C56_absorption.

Example C56_absorption_ex : exists g h cols A, make_angle_vector 2 (PI / 2) 1 SpSin = Ok g /\ length (g_av g) = (2 * h)%nat /\ (0 < h)%nat /\
  rcwa_matrix Rear g 600 1 2 (PI / 2) [(0, 0)%Z] (1 / 500, 0) (0, 1 / 500) 2 (fun t _ => mk_rout (1 / 4) [t; 1] [1 / 4] [1 / 4]) = Ok (cols, A) /\
  exists r, nth_error (g_av g) h = Some r /\ nth 0 A [] = [1; PI - a_theta r].
Proof.
  pose proof PI_RGT_0 as HPI. pose proof tiny_small as TS. pose proof PI2_1 as P1.
  assert (Hv : valid_request 2 (PI / 2) 1) by (split; [lia|lra]).
  destruct (a_grid 2 (PI / 2) 1 Hv) as (g & h & Hg & Hh & Hh0 & _ & _).
  destruct (C56_absorption 2 (PI / 2) 1 SpSin g h 600 1 2 (1 / 500, 0) (0, 1 / 500) Rear [(0, 0)%Z] 2
     (fun t _ => mk_rout (1 / 4) [t; 1] [1 / 4] [1 / 4]) Hv Hg Hh ltac:(lra) ltac:(lra) ltac:(lra) ltac:(lra)) as (cols & A & E & _ & _ & _ & HA).
  exists g, h, cols, A. do 4 (split; auto). destruct (nth_error (g_av g) h) as [r|] eqn:Hr; [|apply nth_error_None in Hr; lia].
  exists r. split; auto. rewrite (HA 0%nat r Hh0); [reflexivity|]. cbn [channel_row]. rewrite Nat.add_0_r. auto.
Qed.

(* Rear incidence on any grid with two or more polar bins: the sum over orders of one bin is read from another
   column.  Two reflected orders of 1/2 each that leave along the same direction (retro-reflection) yield 1/2. *)
Theorem C56_rear_refuted : forall n phi_sym c sp g h wl n_in n_out g2 n_layers r0,
  valid_request n phi_sym c -> make_angle_vector n phi_sym c sp = Ok g -> length (g_av g) = (2 * h)%nat -> 1 / 10 ^ 10 <= phi_sym ->
  0 < wl -> 0 < n_in -> 0 < n_out -> (2 <= n)%nat -> nth_error (g_av g) 0 = Some r0 -> cos (a_phi r0) <> 0 ->
  let g1 := (- 2 * (n_in / wl * sin (a_theta r0) * sin (a_phi r0)), - 2 * (n_in / wl * sin (a_theta r0) * cos (a_phi r0))) in
  exists cols A i r col, rcwa_matrix Rear g wl n_in n_out phi_sym [(0, 0); (1, 0)]%Z g1 g2 n_layers littrow_solver = Ok (cols, A) /\
    (i < h)%nat /\ nth_error (g_av g) (channel_row Rear h i) = Some r /\
    incoming Rear (a_theta r) = a_theta r0 /\ a_phi r = a_phi r0 /\
    rsum (kept n_in n_in wl (a_theta r0) (a_phi r0) g1 g2 [(0, 0); (1, 0)]%Z [1 / 2; 1 / 2]) = 1 /\
    nth i cols [] = map Some col /\ rsum col = 1 / 2.
Proof. exact rcwa_rear_loses. Qed.
Print Assumptions C56_rear_refuted.

Example C56_rear_refuted_ex : exists g h r0, make_angle_vector 2 (PI / 2) 1 SpSin = Ok g /\ length (g_av g) = (2 * h)%nat /\
  valid_request 2 (PI / 2) 1 /\ nth_error (g_av g) 0 = Some r0 /\ cos (a_phi r0) <> 0.
Proof.
  pose proof PI_RGT_0 as HPI. assert (Hv : valid_request 2 (PI / 2) 1) by (split; [lia|lra]).
  destruct (a_grid 2 (PI / 2) 1 Hv) as (g & h & Hg & Hh & Hh0 & Hk & Hrow). rewrite ring_count_1 in Hrow by lia.
  destruct (Hrow 0%nat ltac:(lia)) as (r & Hr & _ & Hp). exists g, h, r. do 4 (split; auto). rewrite Hp. simpl INR.
  apply Rgt_not_eq. apply cos_gt_0; lra.
Qed.

(* ---------- C57 ---------- *)

(* Seen from the rear, materials and widths come in reverse order; the geometries do only if their list is the
   same in both directions. *)
Theorem C57_stack_partial : forall (M G : Type) (l : list (glayer M G)),
  rcwa_stack Front l = l /\
  (rcwa_stack Rear l = rev l <-> map gl_geom l = rev (map gl_geom l)) /\
  map (fun x => (gl_mat x, gl_width x)) (rcwa_stack Rear l) = rev (map (fun x => (gl_mat x, gl_width x)) l).
Proof. intros M G l. split; [apply stack_front|]. split; [apply stack_rear|]. apply (stack_materials Rear). Qed.
Print Assumptions C57_stack_partial.

Example C57_stack_partial_ex : rcwa_stack Rear [mk_glayer 1%nat 100 [5%nat]; mk_glayer 2%nat 200 []; mk_glayer 3%nat 300 [5%nat]] =
  [mk_glayer 3%nat 300 [5%nat]; mk_glayer 2%nat 200 []; mk_glayer 1%nat 100 [5%nat]].
Proof. reflexivity. Qed.

(* A grating in the first of two layers is moved to the other layer. *)
Theorem C57_stack_refuted :
  rcwa_stack Rear [mk_glayer 1%nat 100 [5%nat]; mk_glayer 2%nat 200 []] = [mk_glayer 2%nat 200 [5%nat]; mk_glayer 1%nat 100 []].
Proof. reflexivity. Qed.
Print Assumptions C57_stack_refuted.

(* ---------- C58 ---------- *)

(* R, T and the absorptions of one solution: with continuous flux at the first interface and no light coming
   back from the last medium they exceed 1 by exactly the gain of the layers that amplify. *)
Theorem C58_sum_general : forall S n, (2 <= n)%nat -> 0 < fst (fx S 1) -> both (fx S 1) = both (fx S 2) -> snd (fx S n) = 0 ->
  let '(Rf, T, inc) := rcwa_rt S n in
  Rf + T + rsum (rcwa_absorption_per_layer S n inc) =
  1 + rsum (map (fun i => Rmax 0 (both (fx S (i + 3)) - both (fx S (i + 2)))) (seq 0 (n - 2))) / inc.
Proof. exact rcwa_sum. Qed.
Print Assumptions C58_sum_general.

Theorem C58_sum : forall S n, (2 <= n)%nat -> 0 < fst (fx S 1) -> both (fx S 1) = both (fx S 2) -> snd (fx S n) = 0 ->
  (forall i, (2 <= i < n)%nat -> both (fx S (i + 1)) <= both (fx S i)) ->
  let '(Rf, T, inc) := rcwa_rt S n in
  Rf + T + rsum (rcwa_absorption_per_layer S n inc) = 1 /\ forall a, In a (rcwa_absorption_per_layer S n inc) -> 0 <= a.
Proof.
  intros S n Hn Hi Hc Hb Hp. pose proof (rcwa_sum S n Hn Hi Hc Hb) as E. unfold rcwa_rt in *. rewrite E. split.
  - rewrite rsum_map_0; [field; lra|]. intros i Hin. apply in_seq in Hin.
    specialize (Hp (i + 2)%nat ltac:(lia)). replace (i + 2 + 1)%nat with (i + 3)%nat in Hp by lia. apply Rmax_left. lra.
  - intros a Ha. apply (rcwa_absorption_nonneg S n (fst (fx S 1)) a); auto.
Qed.
Print Assumptions C58_sum.

Example C58_sum_ex :
  let S := mk_fluxes (fun i => match i with 1%nat => (2, -1 / 2) | 2%nat => (5 / 2, -1) | 3%nat => (3 / 2, -1 / 2) | _ => (1 / 2, 0) end) (fun _ => []) in
  rcwa_rt S 4 = (- (-1 / 2) / 2, 1 / 2 / 2, 2) /\ rsum (rcwa_absorption_per_layer S 4 2) = 1 / 2.
Proof.
  intros S. split; [reflexivity|]. pose proof (C58_sum S 4 ltac:(lia)) as H. cbn [S fx fst snd both rcwa_rt] in H. unfold both in H. cbn [fst snd] in H.
  destruct H as [H _]; try lra. { intros i Hi. destruct i as [|[|[|[|i]]]]; cbn [plus fst snd]; try lia; lra. }
Qed.

(* ---------- C65 ---------- *)

Theorem C65_tmm : forall widths spacing layers d, profile_depths widths spacing layers = Ok d ->
  exists df dr, tmm_dist Front widths spacing layers = Ok df /\ tmm_dist Rear widths spacing layers = Ok dr /\ length df = length dr.
Proof.
  intros widths spacing layers d Hd. unfold tmm_dist, rlift. rewrite Hd. cbn [rbind]. do 2 eexists. split; [reflexivity|]. split; [reflexivity|].
  rewrite rev_length, map_length. auto.
Qed.
Print Assumptions C65_tmm.

Example C65_tmm_ex : exists d, profile_depths [3 / 2; 5 / 2] 1 [1%nat] = Ok d.
Proof. unfold profile_depths. eexists. apply points_in_layer. simpl. lia. Qed.

(* RCWA: true when every width is a whole number of steps, false in general. *)
Theorem C65_rcwa_partial : forall d ks ls, 0 < d -> Forall (fun l => 1 <= l <= length ks)%nat ls ->
  let widths := map (fun k => INR k * d) ks in
  exists df dr, rcwa_dist Front widths d ls = Ok df /\ rcwa_dist Rear widths d ls = Ok dr /\ length df = length dr /\
    length df = list_sum (map (fun l => nth (l - 1) ks 0%nat) ls).
Proof. intros d ks ls Hd H. exact (rcwa_points_multiples d Hd ks ls H). Qed.
Print Assumptions C65_rcwa_partial.

Example C65_rcwa_partial_ex : exists df dr, rcwa_dist Front (map (fun k => INR k * 2) [5; 7]%nat) 2 [1; 2]%nat = Ok df /\
  rcwa_dist Rear (map (fun k => INR k * 2) [5; 7]%nat) 2 [1; 2]%nat = Ok dr /\ length df = 12%nat /\ length dr = 12%nat.
Proof.
  destruct (C65_rcwa_partial 2 [5; 7]%nat [1; 2]%nat ltac:(lra)) as (df & dr & A & B & C & D).
  { repeat constructor; simpl; lia. } exists df, dr. split; auto. split; auto. cbn in D. lia.
Qed.

Theorem C65_rcwa_refuted : exists df dr, rcwa_dist Front [3 / 2; 5 / 2] 1 [1%nat] = Ok df /\ rcwa_dist Rear [3 / 2; 5 / 2] 1 [1%nat] = Ok dr /\
  length df = 2%nat /\ length dr = 1%nat.
Proof. exact rcwa_points_differ. Qed.
Print Assumptions C65_rcwa_refuted.

(* ---------- C100 ---------- *)

(* A direction that is not reflected at all: the column contains NaN. *)
Theorem C100_no_reflection_refuted : forall n phi_sym c sp g h wl n_in n_out g1 g2 s basis n_layers solve,
  valid_request n phi_sym c -> make_angle_vector n phi_sym c sp = Ok g -> length (g_av g) = (2 * h)%nat -> 1 / 10 ^ 10 <= phi_sym ->
  0 < wl -> 0 < n_in -> 0 < n_out -> s = Front \/ n = 1%nat ->
  exists cols A, rcwa_matrix s g wl n_in n_out phi_sym basis g1 g2 n_layers solve = Ok (cols, A) /\
    forall i r, (i < h)%nat -> nth_error (g_av g) (channel_row s h i) = Some r ->
      let theta := incoming s (a_theta r) in let phi := a_phi r in let o := solve theta phi in
      length (q_Rp o) = length basis -> basis <> [] -> rsum (kept n_in n_in wl theta phi g1 g2 basis (q_Rp o)) = 0 ->
      exists b, (b < 2 * h)%nat /\ nth_error (nth i cols []) b = Some None.
Proof. exact rcwa_nan. Qed.
Print Assumptions C100_no_reflection_refuted.

Example C100_no_reflection_refuted_ex : exists g h cols A b, make_angle_vector 2 (PI / 2) 1 SpSin = Ok g /\ length (g_av g) = (2 * h)%nat /\
  rcwa_matrix Front g 600 1 1 (PI / 2) [(0, 0)%Z] (1 / 500, 0) (0, 1 / 500) 0 (fun _ _ => mk_rout 1 [] [0] [1]) = Ok (cols, A) /\
  nth_error (nth 0 cols []) b = Some None.
Proof.
  pose proof PI_RGT_0 as HPI. pose proof tiny_small as TS. pose proof PI2_1 as P1.
  assert (Hv : valid_request 2 (PI / 2) 1) by (split; [lia|lra]).
  destruct (a_grid 2 (PI / 2) 1 Hv) as (g & h & Hg & Hh & Hh0 & _ & Hrow). rewrite ring_count_1 in Hrow by lia. destruct (Hrow 0%nat ltac:(lia)) as (r & Hr & _).
  destruct (C100_no_reflection_refuted 2 (PI / 2) 1 SpSin g h 600 1 1 (1 / 500, 0) (0, 1 / 500) Front [(0, 0)%Z] 0
     (fun _ _ => mk_rout 1 [] [0] [1]) Hv Hg Hh ltac:(lra) ltac:(lra) ltac:(lra) ltac:(lra) (or_introl eq_refl)) as (cols & A & E & H).
  destruct (H 0%nat r Hh0 Hr) as (b & _ & Hb); try discriminate; [reflexivity| |exists g, h, cols, A, b; auto].
  unfold kept, kept_power. cbn [map2 q_Rp]. destruct (Rlt_dec _ _); [destruct (Rle_dec _ _)|]; cbn [rsum]; lra.
Qed.

(* ---------- C101 ---------- *)

(* A flat structure, a symmetry range that divides pi: the two methods store the same column. *)
Theorem C101_flat_partial : forall n phi_sym c sp g h M (SV : solver M) mem idx a i r Rp Tp Al wl g1 g2 n_layers solve (k : Z),
  valid_request n phi_sym c -> make_angle_vector n phi_sym c sp = Ok g -> length (g_av g) = (2 * h)%nat -> 1 / 10 ^ 10 <= phi_sym ->
  IZR k * phi_sym = PI -> (i < h)%nat -> nth_error (g_av g) i = Some r ->
  let n1 := idx (from_medium a Front) in let n2 := idx (into_medium a Front) in
  0 < n1 -> 0 < n2 -> 0 < wl -> tmm_entry SV mem a Front (a_theta r) = Ok (Rp, Tp, Al) -> n1 * sin (a_theta r) < n2 ->
  1 / 10 ^ 16 <= Rp -> 1 / 10 ^ 16 <= Tp -> Rp + Tp + rsum Al = 1 -> solve (a_theta r) (a_phi r) = mk_rout Tp Al [Rp] [Tp] ->
  exists col cols A, tmm_matrix_column SV mem idx a Front g phi_sym i = Ok (col, Al) /\
    rcwa_matrix Front g wl n1 n2 phi_sym [(0, 0)%Z] g1 g2 n_layers solve = Ok (cols, A) /\
    nth i cols [] = map Some col /\ nth i A [] = Al.
Proof. exact flat_agree. Qed.
Print Assumptions C101_flat_partial.

Example C101_flat_partial_ex : exists g h col cols A, make_angle_vector 1 PI 1 SpSin = Ok g /\ length (g_av g) = (2 * h)%nat /\
  tmm_matrix_column half_solver [] (fun _ => 1) (mk_args 0%nat [] 1%nat true None "s") Front g PI 0 = Ok (col, []) /\
  rcwa_matrix Front g 600 1 1 PI [(0, 0)%Z] (1, 0) (0, 1) 0 (fun _ _ => mk_rout (1 / 2) [] [1 / 2] [1 / 2]) = Ok (cols, A) /\
  nth 0 cols [] = map Some col.
Proof.
  pose proof PI_RGT_0 as HPI. pose proof tiny_small as TS. pose proof PI2_1 as P1.
  assert (Hv : valid_request 1 PI 1) by (split; [lia|lra]).
  destruct (a_grid 1 PI 1 Hv) as (g & h & Hg & Hh & Hh0 & _ & Hrow). rewrite ring_count_1 in Hrow by lia. destruct (Hrow 0%nat ltac:(lia)) as (r & Hr & _).
  assert (T : 1 / 10 ^ 16 <= 1 / 2).
  { unfold Rdiv. rewrite !Rmult_1_l. apply Rinv_le_contravar; [lra|]. apply Rle_trans with (10 ^ 1); [lra|]. apply Rle_pow; [lra|lia]. }
  destruct (row_angles 1 PI 1 SpSin g h Hv Hg Hh 0 r Hh0 Hr) as [Ht _].
  assert (1 * sin (a_theta r) < 1). { rewrite Rmult_1_l, <- sin_PI2. apply sin_increasing_1; lra. }
  destruct (C101_flat_partial 1 PI 1 SpSin g h nat half_solver [] (fun _ => 1) (mk_args 0%nat [] 1%nat true None "s") 0 r (1 / 2) (1 / 2) [] 600 (1, 0) (0, 1) 0
    (fun _ _ => mk_rout (1 / 2) [] [1 / 2] [1 / 2]) 1 Hv Hg Hh ltac:(lra) ltac:(lra) Hh0 Hr) as (col & cols & A & C1 & C2 & C3 & _); try lra; auto.
  { apply half_entry. } { cbn [rsum]. lra. } exists g, h, col, cols, A. auto.
Qed.

(* Full turn: for azimuths below pi/2 RCWA stores the reflected beam at phi, TMM at phi + pi. *)
Theorem C101_flat_refuted : forall n phi_sym c sp g h M (SV : solver M) mem idx a i r i' r' Rp Tp Al wl g1 g2 n_layers solve,
  valid_request n phi_sym c -> make_angle_vector n phi_sym c sp = Ok g -> length (g_av g) = (2 * h)%nat ->
  phi_sym = 2 * PI -> (i < h)%nat -> nth_error (g_av g) i = Some r -> nth_error (g_av g) i' = Some r' ->
  a_theta r' = a_theta r -> a_phi r' = a_phi r + PI -> a_phi r < PI / 2 ->
  let n1 := idx (from_medium a Front) in let n2 := idx (into_medium a Front) in
  0 < n1 -> 0 < n2 -> 0 < wl -> tmm_entry SV mem a Front (a_theta r) = Ok (Rp, Tp, Al) -> n1 * sin (a_theta r) < n2 ->
  1 / 10 ^ 16 <= Rp -> 1 / 10 ^ 16 <= Tp -> Rp + Tp + rsum Al = 1 -> solve (a_theta r) (a_phi r) = mk_rout Tp Al [Rp] [Tp] ->
  exists col cols A col', tmm_matrix_column SV mem idx a Front g phi_sym i = Ok (col, Al) /\
    rcwa_matrix Front g wl n1 n2 phi_sym [(0, 0)%Z] g1 g2 n_layers solve = Ok (cols, A) /\
    nth i cols [] = map Some col' /\ nth i' col 0 = Rp /\ nth i col 0 = 0 /\ nth i col' 0 = Rp /\ nth i' col' 0 = 0.
Proof. exact flat_disagree. Qed.
Print Assumptions C101_flat_refuted.

Example C101_flat_refuted_ex : exists g h r r', valid_request 1 (2 * PI) 4 /\ make_angle_vector 1 (2 * PI) 4 SpSin = Ok g /\
  length (g_av g) = (2 * h)%nat /\ (0 < h)%nat /\ nth_error (g_av g) 0 = Some r /\ nth_error (g_av g) 2 = Some r' /\
  a_theta r' = a_theta r /\ a_phi r' = a_phi r + PI /\ a_phi r < PI / 2 /\ 1 * sin (a_theta r) < 1 /\
  tmm_entry half_solver [] (mk_args 0%nat [] 1%nat true None "s") Front (a_theta r) = Ok (1 / 2, 1 / 2, []).
Proof.
  pose proof PI_RGT_0 as HPI. assert (Hv : valid_request 1 (2 * PI) 4) by (split; [lia|lra]).
  destruct (a_grid 1 (2 * PI) 4 Hv) as (g & h & Hg & Hh & Hh0 & _ & Hrow). rewrite ring_count_4 in Hrow.
  destruct (Hrow 0%nat ltac:(lia)) as (r & Hr & Ht & Hp). destruct (Hrow 2%nat ltac:(lia)) as (r' & Hr' & Ht' & Hp').
  destruct (row_angles 1 (2 * PI) 4 SpSin g h Hv Hg Hh 0 r Hh0 Hr) as [Hth _].
  exists g, h, r, r'. do 6 (split; auto). simpl INR in Hp, Hp'. split; [congruence|]. split; [rewrite Hp, Hp'; field|]. split; [rewrite Hp; lra|].
  split; [rewrite Rmult_1_l, <- sin_PI2; apply sin_increasing_1; lra|apply half_entry].
Qed.

(* ---------- C102 ---------- *)

Theorem C102_front_partial : forall widths spacing layers prof A d, profile_depths widths spacing layers = Ok d -> 0 < rsum A ->
  exists z data, rcwa_profile Front widths spacing layers prof A = Ok (z, data) /\ z = d /\ length data = length d /\
    forall j, (j < length d)%nat -> nth j data 0 = Rmax 0 (prof (nth j d 0)).
Proof. exact rcwa_profile_front. Qed.
Print Assumptions C102_front_partial.

Example C102_front_partial_ex : exists d, profile_depths [8; 22] 4 [1%nat] = Ok d /\ 0 < rsum [1 / 4; 1 / 2].
Proof. unfold profile_depths. eexists. split; [apply points_in_layer; simpl; lia|]. simpl. lra. Qed.

(* Rear: z holds the depths from the rear in increasing order, and the data in decreasing order. *)
Theorem C102_rear_z_refuted :
  (forall widths spacing layers prof A d, rcwa_dist Rear widths spacing layers = Ok d -> 0 < rsum A ->
    exists z data, rcwa_profile Rear widths spacing layers prof A = Ok (z, data) /\ z = d /\ length data = length d /\
      forall j, (j < length d)%nat -> nth j data 0 = Rmax 0 (prof (nth (length d - 1 - j) d 0))) /\
  exists z data, rcwa_profile Rear [8; 22] 4 [1%nat] (fun x => x) [1] = Ok (z, data) /\ z = [24; 28] /\ data = [28; 24].
Proof. split; [exact rcwa_rear_labels|exact rcwa_rear_z_wrong]. Qed.
Print Assumptions C102_rear_z_refuted.
