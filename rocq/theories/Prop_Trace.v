(* C151-C153: rays meeting a flat surface; the scattering matrix ray tracing gives it, and the transfer matrix. *)
From Coq Require Import Reals List ZArith Bool Lia Lra.
From Verif Require Import Base Lib Model_Angles Spec_Angles Model_Ideal Model_MatMul Model_Optics Model_RayIface Model_RT Model_Surface Model_Trace Model_TMM
  Spec_Matrix Spec_MatMul Spec_TMM Spec_RT Spec_Surface Spec_Trace Proof_AnglesProps Proof_RT2 Proof_TMM Proof_Slab2 Proof_Surface3 Proof_Surface4 Proof_Optics Proof_Trace2 Proof_Trace3 Proof_Trace4
  Prop_MatMul Prop_Slab.
Import ListNotations.
Local Notation length := List.length.
Open Scope list_scope.
Open Scope R_scope.

(* planar_surface is flat, however Delaunay splits the square *)
Lemma planar_flat del size : 0 < size ->
  In (del (map (fun v => (vx v, vy v)) (planar_points size)))
     [ [(0, 2, 1); (0, 1, 3)]; [(0, 2, 3); (2, 1, 3)] ]%nat ->
  exists s, mk_surface del (planar_points size) None None = Ok s /\ flat_surface 0 size size s.
Proof.
  intros Hs Hd. pose proof (planar_cell size Hs) as F.
  destruct (mk_ok_cell del _ None None size size F) as [s E].
  { exists (mkv 0 0 0). split; [now left|reflexivity]. }
  exists s. split; [exact E|]. exists del, (planar_points size). split; [exact E|]. split; [exact F|].
  split; [intros v I; cbn in I; repeat (destruct I as [<-|I]); try (now destruct I); reflexivity|].
  assert (S : su_simp s = del (map (fun v => (vx v, vy v)) (planar_points size))).
  { unfold mk_surface in E. destruct (argmax _); [|discriminate]. cbn [rbind] in E. destruct (find_zcov _); [|discriminate].
    cbn [rbind] in E. now injection E as <-. }
  rewrite S. assert (Q : 0 < size * size) by nra. split.
  - destruct Hd as [<-|[<-|[]]]; repeat constructor; unfold planar_points; cbn; try lia; nra.
  - intros x y Hx Hy. assert (X : 0 <= x / size <= 1).
    { split; [apply Rmult_le_pos; [lra|left; now apply Rinv_0_lt_compat]|]. apply (Rmult_le_reg_r size); auto. unfold Rdiv. rewrite Rmult_assoc, Rinv_l; lra. }
    assert (Y : 0 <= y / size <= 1).
    { split; [apply Rmult_le_pos; [lra|left; now apply Rinv_0_lt_compat]|]. apply (Rmult_le_reg_r size); auto. unfold Rdiv. rewrite Rmult_assoc, Rinv_l; lra. }
    assert (EX : x = x / size * size) by (field; lra). assert (EY : y = y / size * size) by (field; lra).
    set (u := x / size) in *. set (w := y / size) in *. clearbody u w.
    destruct Hd as [<-|[<-|[]]].
    + destruct (Rle_lt_dec w u).
      * exists 0%nat, 2%nat, 1%nat, (u - w), w. split; [now left|]. unfold planar_points. cbn. lra.
      * exists 0%nat, 1%nat, 3%nat, u, (w - u). split; [right; now left|]. unfold planar_points. cbn. lra.
    + destruct (Rle_lt_dec (u + w) 1).
      * exists 0%nat, 2%nat, 3%nat, u, w. split; [now left|]. unfold planar_points. cbn. lra.
      * exists 2%nat, 1%nat, 3%nat, (u + w - 1), (1 - u). split; [right; now left|]. unfold planar_points. cbn. lra.
Qed.

Definition split1 (_ : list (R * R)) : triples := [(0, 2, 1); (0, 1, 3)]%nat.

Lemma a_flat_surface : exists s, mk_surface split1 (planar_points 1) None None = Ok s /\ flat_surface 0 1 1 s.
Proof. apply planar_flat; [lra|now left]. Qed.

(* ---------- C151 ---------- *)

(* A ray fired at a flat surface from above, anywhere and in any direction, is reflected exactly when its random number is
   at most Fresnel's reflectance, back at the same angle on the other side of the normal; otherwise it goes through at
   Snell's angle in the same plane.  It never gets lost or meets the surface twice. *)
Theorem C151_fresnel : forall z0 a b s ni nj p theta phi sh outer fuel,
  flat_surface z0 a b s -> 0 < a -> 0 < b -> z0 + 1 / 10 ^ 8 <> 0 -> 0 < ni -> 0 < nj -> 0 <= theta < PI / 2 -> sh_rnd sh 0%nat < 1 ->
  exists y, trace_shot (S outer) (3 + fuel) s (fresnel_decision ni nj p) theta phi sh = Some (Ok y) /\
    (sh_rnd sh 0%nat <= fresnel_R ni nj theta p -> goes y theta (phi + PI)) /\
    (fresnel_R ni nj theta p < sh_rnd sh 0%nat -> exists psi, refracts ni nj theta psi /\ psi < PI / 2 /\ goes y (PI - psi) (phi + PI)).
Proof.
  intros z0 a b s ni nj p theta phi sh outer fuel Hs Ha Hb Hz Hi Hj Ht Hu.
  exact (flat_fresnel z0 a b s Hs Ha Hb ni nj p theta phi sh outer fuel Hi Hj Ht Hz Hu).
Qed.
Print Assumptions C151_fresnel.

(* With a lookup table for the layers of the surface the random number decides between the table's R, its T and
   absorption in the layers. *)
Theorem C151_table : forall z0 a b s ni nj ent theta phi sh outer fuel,
  flat_surface z0 a b s -> 0 < a -> 0 < b -> z0 + 1 / 10 ^ 8 <> 0 -> 0 < ni -> 0 < nj -> 0 <= theta < PI / 2 ->
  let e := ent 1%Z theta in let u := sh_rnd sh 0%nat in
  0 <= te_T e -> u <= te_R e \/ te_R e + te_T e < u \/ ni * sin theta < nj ->
  exists y, trace_shot (S outer) (3 + fuel) s (table_decision ni nj ent) theta phi sh = Some (Ok y) /\
    (u <= te_R e -> goes y theta (phi + PI)) /\
    (te_R e < u <= te_R e + te_T e -> exists psi, refracts ni nj theta psi /\ psi < PI / 2 /\ goes y (PI - psi) (phi + PI)) /\
    (te_R e + te_T e < u -> is_absorbed y (te_A e) theta).
Proof.
  intros z0 a b s ni nj ent theta phi sh outer fuel Hs Ha Hb Hz Hi Hj Ht e u HT HC.
  exact (flat_table z0 a b s Hs Ha Hb ni nj ent theta phi sh outer fuel Hi Hj Ht Hz HC HT).
Qed.
Print Assumptions C151_table.

Definition shot_of (u : R) : shot := {| sh_x := 1 / 3; sh_y := 1 / 4; sh_rnd := fun _ => u; sh_xy := fun _ => (0, 0); sh_h := fun _ => 1 |}.

(* from glass into air at 60 degrees, beyond the critical angle *)
Example C151_case : exists s y, mk_surface split1 (planar_points 1) None None = Ok s /\ flat_surface 0 1 1 s /\
  trace_shot 1 3 s (fresnel_decision (3 / 2) 1 PolS) (PI / 3) 2 (shot_of (9 / 10)) = Some (Ok y) /\ goes y (PI / 3) (2 + PI).
Proof.
  destruct a_flat_surface as [s [E F]]. pose proof PI_RGT_0.
  destruct (C151_fresnel 0 1 1 s (3 / 2) 1 PolS (PI / 3) 2 (shot_of (9 / 10)) 0 0 F ltac:(lra) ltac:(lra) ltac:(lra) ltac:(lra) ltac:(lra) ltac:(lra) ltac:(cbn; lra))
    as (y & Ey & A & _).
  exists s, y. split; auto. split; auto. split; auto. apply A.
  destruct (fresnel_R_cases (3 / 2) 1 (PI / 3) PolS ltac:(lra) ltac:(lra) ltac:(lra)) as [T _]. rewrite T; [cbn; lra|].
  rewrite sin_PI3. assert (3 / 2 < sqrt 3). { rewrite <- (sqrt_square (3 / 2)) by lra. apply sqrt_lt_1; lra. } lra.
Qed.

Example C151_table_case : exists s, flat_surface 0 1 1 s /\
  let e := {| te_R := 1 / 4; te_T := 1 / 2; te_A := [1; 3] |} in
  0 <= te_T e /\ 1 * sin 1 < 3 / 2 /\ sh_rnd (shot_of (9 / 10)) 0%nat > te_R e + te_T e /\ 0 <= 1 < PI / 2.
Proof.
  destruct a_flat_surface as [s [E F]]. exists s. split; auto. cbn. pose proof PI2_1. pose proof (SIN_bound 1). lra.
Qed.

(* ---------- C152 ---------- *)

(* The matrix of a flat surface has, in every column, the share of the rays fired in that column's direction whose random
   number was at most Fresnel's reflectance in the mirror bin, the rest in the bin Snell's law leads to, and nothing else;
   beyond the critical angle everything is in the mirror bin. *)
Theorem C152_fresnel : forall n phi_sym c sp g h m s l n_rays nx ny G n1 n2 surf z0 a b p outer fuel,
  valid_request n phi_sym c -> make_angle_vector n phi_sym c sp = Ok g -> length (g_av g) = (2 * h)%nat ->
  m_fold m phi_sym -> Nat.even m = true ->
  0 < n1 -> 0 < n2 -> flat_surface z0 a b surf -> 0 < a -> 0 < b -> z0 + 1 / 10 ^ 8 <> 0 ->
  (1 <= nx * ny)%nat -> (h * (nx * ny) <= n_rays)%nat ->
  map fst l = regular_directions g (n_angles_of n_rays nx ny) ->
  (forall q, In q l -> length (snd q) = (nx * ny)%nat /\ forall sh, In sh (snd q) -> sh_rnd sh 0%nat < 1) ->
  (exists beams, Forall2 (fired (S outer) (3 + fuel) surf (fresnel_decision n1 n2 p)) l beams) /\
  forall beams, Forall2 (fired (S outer) (3 + fuel) surf (fresnel_decision n1 n2 p)) l beams ->
  exists res, RT_wl s false phi_sym g 0 beams G = Ok res /\
  forall k r, (k < h)%nat -> nth_error (g_av g) (channel_row s h k) = Some r ->
  let theta := incoming s (a_theta r) in
  let col := map (fun row => nth k row 0) (o_mat res) in
  let d := draws_at l theta (a_phi r) in
  let Rt := share (fun u => Rleb u (fresnel_R n1 n2 theta p)) d in
  d <> [] /\
  (n1 * sin theta < n2 -> exists psi kt, refracts n1 n2 theta psi /\ bin_contains g kt (onward s psi) (a_phi r) /\ other_half s h kt /\
     holds_two col (channel_row s h k) Rt kt (1 - Rt)) /\
  (n2 <= n1 * sin theta -> holds_one col (channel_row s h k) 1).
Proof.
  intros n phi_sym c sp g h m s l n_rays nx ny G n1 n2 surf z0 a b p outer fuel Hv Hg Hh Hm He Hn1 Hn2 Hs Ha Hb Hz Hxy Hrays Hl Hshots.
  split.
  - eapply fresnel_runs; eauto.
  - intros beams Hf.
    destruct (fresnel_matrix n phi_sym c sp g h m Hv Hg Hh Hm He s l n_rays nx ny G n1 n2 surf z0 a b outer fuel Hn1 Hn2 Hs Ha Hb Hz Hxy Hrays Hl Hshots p beams Hf)
      as [res [E H]]. exists res. split; auto. intros k r Hk Hr theta col d Rt. split; [|exact (H k r Hk Hr)].
    eapply draws_here; eauto.
Qed.
Print Assumptions C152_fresnel.

(* the same with layers on the surface: shares of the table's R, T, and absorbed *)
Theorem C152_table : forall n phi_sym c sp g h m s l n_rays nx ny G n1 n2 surf z0 a b ent n_abs outer fuel beams,
  valid_request n phi_sym c -> make_angle_vector n phi_sym c sp = Ok g -> length (g_av g) = (2 * h)%nat ->
  m_fold m phi_sym -> Nat.even m = true ->
  0 < n1 -> 0 < n2 -> flat_surface z0 a b surf -> 0 < a -> 0 < b -> z0 + 1 / 10 ^ 8 <> 0 ->
  (1 <= nx * ny)%nat -> (h * (nx * ny) <= n_rays)%nat ->
  map fst l = regular_directions g (n_angles_of n_rays nx ny) ->
  (forall q, In q l -> length (snd q) = (nx * ny)%nat /\ forall sh, In sh (snd q) -> sh_rnd sh 0%nat < 1) ->
  (forall t, 0 <= t < PI / 2 -> let e := ent 1%Z t in 0 <= te_T e /\ length (te_A e) = n_abs /\ 0 < rsum (te_A e) /\
     (n2 <= n1 * sin t -> te_T e = 0)) ->
  Forall2 (fired (S outer) (3 + fuel) surf (table_decision n1 n2 ent)) l beams ->
  exists res, RT_wl s true phi_sym g n_abs beams G = Ok res /\
  forall k r, (k < h)%nat -> nth_error (g_av g) (channel_row s h k) = Some r ->
  let theta := incoming s (a_theta r) in
  let e := ent 1%Z theta in
  let col := map (fun row => nth k row 0) (o_mat res) in
  let d := draws_at l theta (a_phi r) in
  let Rt := share (fun u => Rleb u (te_R e)) d in
  d <> [] /\ col_total (o_Amat res) k = share (fun u => Rltb (te_R e + te_T e) u) d /\
  (n1 * sin theta < n2 -> exists psi kt, refracts n1 n2 theta psi /\ bin_contains g kt (onward s psi) (a_phi r) /\ other_half s h kt /\
     holds_two col (channel_row s h k) Rt kt (share (fun u => Rltb (te_R e) u && Rleb u (te_R e + te_T e)) d)) /\
  (n2 <= n1 * sin theta -> holds_one col (channel_row s h k) Rt).
Proof.
  intros n phi_sym c sp g h m s l n_rays nx ny G n1 n2 surf z0 a b ent n_abs outer fuel beams Hv Hg Hh Hm He Hn1 Hn2 Hs Ha Hb Hz Hxy Hrays Hl Hshots Hent Hf.
  destruct (table_matrix n phi_sym c sp g h m Hv Hg Hh Hm He s l n_rays nx ny G n1 n2 surf z0 a b outer fuel Hn1 Hn2 Hs Ha Hb Hz Hxy Hrays Hl Hshots ent n_abs beams Hf Hent)
    as [res [E H]]. exists res. split; auto. intros k r Hk Hr theta e col d Rt. split; [|exact (H k r Hk Hr)].
  eapply draws_here; eauto.
Qed.
Print Assumptions C152_table.

(* the runs C152_table speaks about exist *)
Lemma table_runs : forall g h l n_rays nx ny n1 n2 surf z0 a b (ent : Z -> R -> Model_Optics.table_entry) n_abs outer fuel,
  (forall q, In q l -> 0 <= fst (fst q) < PI / 2) -> length (g_av g) = (2 * h)%nat ->
  0 < n1 -> 0 < n2 -> flat_surface z0 a b surf -> 0 < a -> 0 < b -> z0 + 1 / 10 ^ 8 <> 0 ->
  map fst l = regular_directions g (n_angles_of n_rays nx ny) ->
  (forall t, 0 <= t < PI / 2 -> let e := ent 1%Z t in 0 <= te_T e /\ length (te_A e) = n_abs /\ 0 < rsum (te_A e) /\
     (n2 <= n1 * sin t -> te_T e = 0)) ->
  exists beams, Forall2 (fired (S outer) (3 + fuel) surf (table_decision n1 n2 ent)) l beams.
Proof.
  intros g h l n_rays nx ny n1 n2 surf z0 a b ent n_abs outer fuel PT Hh Hn1 Hn2 Hs Ha Hb Hz Hl Hent. clear Hl.
  induction l as [|q l' IH]; [exists []; constructor|]. destruct IH as [bs F]; [intros; apply PT; now right|].
  pose proof (PT q (or_introl eq_refl)) as Ht.
  assert (exists ys, Forall2 (fun sh y => trace_shot (S outer) (3 + fuel) surf (table_decision n1 n2 ent) (fst (fst q)) (snd (fst q)) sh = Some (Ok y)) (snd q) ys) as [ys Hy].
  { clear F. induction (snd q) as [|sh ss IH]; [exists []; constructor|]. destruct IH as [ys F].
    destruct (Hent _ Ht) as (T0 & _ & _ & T1).
    destruct (C151_table z0 a b surf n1 n2 ent _ (snd (fst q)) sh outer fuel Hs Ha Hb Hz Hn1 Hn2 Ht T0) as [y [Ey _]].
    { destruct (Rlt_le_dec (n1 * sin (fst (fst q))) n2) as [Q|Q]; auto. rewrite (T1 Q).
      destruct (Rle_lt_dec (sh_rnd sh 0%nat) (te_R (ent 1%Z (fst (fst q))))); auto. right. left. lra. }
    exists (y :: ys). constructor; auto. }
  exists ({| b_theta := fst (fst q); b_phi := snd (fst q); b_rays := ys |} :: bs). constructor; auto. split; auto.
Qed.

(* ten positions in every direction of the sample grid *)
Definition plan_for (g : grid) (na : nat) : plan :=
  map (fun d => (d, map (fun i => shot_of (INR i / 10)) (seq 0 10))) (regular_directions g na).

Lemma plan_for_fst g na : map fst (plan_for g na) = regular_directions g na.
Proof. unfold plan_for. rewrite map_map. rewrite <- (map_id (regular_directions g na)) at 2. apply map_ext. reflexivity. Qed.

Lemma plan_for_shots g na q : In q (plan_for g na) -> length (snd q) = 10%nat /\ forall sh, In sh (snd q) -> sh_rnd sh 0%nat < 1.
Proof.
  intros H. apply in_map_iff in H. destruct H as [d [<- _]]. cbn [snd]. split; [now rewrite map_length, seq_length|].
  intros sh Hs. apply in_map_iff in Hs. destruct Hs as [i [<- Hi]]. apply in_seq in Hi. cbn [shot_of sh_rnd].
  assert (INR i <= 9). { replace 9 with (INR 9) by (cbn; lra). apply le_INR. lia. } lra.
Qed.

Example C152_case : exists g h surf l, valid_request 5 (PI / 2) (1 / 4) /\ make_angle_vector 5 (PI / 2) (1 / 4) SpSin = Ok g /\
  length (g_av g) = (2 * h)%nat /\ (0 < h)%nat /\ m_fold 4 (PI / 2) /\ flat_surface 0 1 1 surf /\
  l = plan_for g (n_angles_of (h * (5 * 2)) 5 2) /\
  map fst l = regular_directions g (n_angles_of (h * (5 * 2)) 5 2) /\
  (forall q, In q l -> length (snd q) = (5 * 2)%nat /\ forall sh, In sh (snd q) -> sh_rnd sh 0%nat < 1).
Proof.
  destruct sample_grid as [g [h [A [B [C [D [E [F G]]]]]]]]. destruct a_flat_surface as [s [_ S]].
  exists g, h, s, (plan_for g (n_angles_of (h * (5 * 2)) 5 2)). split; auto. split; auto. split; auto. split; auto. split; auto. split; auto.
  split; auto. split; [apply plan_for_fst|]. intros q Hq. exact (plan_for_shots _ _ _ Hq).
Qed.

Example C152_table_case : exists g h surf l beams, make_angle_vector 5 (PI / 2) (1 / 4) SpSin = Ok g /\ length (g_av g) = (2 * h)%nat /\ (0 < h)%nat /\
  flat_surface 0 1 1 surf /\ map fst l = regular_directions g (n_angles_of (h * (5 * 2)) 5 2) /\
  let ent := fun (_ : Z) (_ : R) => {| te_R := 1 / 4; te_T := 1 / 2; te_A := [1; 3] |} in
  (forall t, 0 <= t < PI / 2 -> let e := ent 1%Z t in 0 <= te_T e /\ length (te_A e) = 2%nat /\ 0 < rsum (te_A e) /\
     (3 / 2 <= 1 * sin t -> te_T e = 0)) /\
  Forall2 (fired 1 3 surf (table_decision 1 (3 / 2) ent)) l beams.
Proof.
  destruct C152_case as (g & h & s & l & A & B & C & D & E & F & El & H & I).
  set (ent := fun (_ : Z) (_ : R) => {| te_R := 1 / 4; te_T := 1 / 2; te_A := [1; 3] |}).
  assert (K : forall t, 0 <= t < PI / 2 -> let e := ent 1%Z t in 0 <= te_T e /\ length (te_A e) = 2%nat /\ 0 < rsum (te_A e) /\
     (3 / 2 <= 1 * sin t -> te_T e = 0)).
  { intros t Ht. cbn. split; [lra|]. split; [auto|]. split; [lra|]. intros L. pose proof (SIN_bound t). lra. }
  destruct (table_runs g h l (h * (5 * 2)) 5 2 1 (3 / 2) s 0 1 1 ent 2 0 0) as [beams Hb]; auto; try lra.
  { intros q Hq. exact (plan_theta 5 (PI / 2) (1 / 4) SpSin g h A B C l _ _ _ H q Hq). }
  exists g, h, s, l, beams. auto 12.
Qed.

(* ---------- C153 ---------- *)

(* Ray tracing a flat surface and calculating it with transfer matrices put the light of a column into the same two bins;
   they differ at most in how much goes into each. *)
Theorem C153_same_bins : forall n phi_sym c sp g h m s l n_rays nx ny G surf z0 ca cb p outer fuel beams
    M (SV : solver M) mem idx a k r Rp Tp Al,
  valid_request n phi_sym c -> make_angle_vector n phi_sym c sp = Ok g -> length (g_av g) = (2 * h)%nat ->
  m_fold m phi_sym -> Nat.even m = true -> 1 / 10 ^ 10 <= phi_sym ->
  let n1 := idx (from_medium a s) in let n2 := idx (into_medium a s) in
  0 < n1 -> 0 < n2 -> flat_surface z0 ca cb surf -> 0 < ca -> 0 < cb -> z0 + 1 / 10 ^ 8 <> 0 ->
  (1 <= nx * ny)%nat -> (h * (nx * ny) <= n_rays)%nat ->
  map fst l = regular_directions g (n_angles_of n_rays nx ny) ->
  (forall q, In q l -> length (snd q) = (nx * ny)%nat /\ forall sh, In sh (snd q) -> sh_rnd sh 0%nat < 1) ->
  Forall2 (fired (S outer) (3 + fuel) surf (fresnel_decision n1 n2 p)) l beams ->
  (k < h)%nat -> nth_error (g_av g) (channel_row s h k) = Some r ->
  let theta := incoming s (a_theta r) in
  tmm_entry SV mem a s theta = Ok (Rp, Tp, Al) -> n1 * sin theta < n2 ->
  exists res col kr kt, RT_wl s false phi_sym g 0 beams G = Ok res /\ tmm_matrix_column SV mem idx a s g phi_sym k = Ok (col, Al) /\
    let Rt := share (fun u => Rleb u (fresnel_R n1 n2 theta p)) (draws_at l theta (a_phi r)) in
    holds_two col kr Rp kt Tp /\ holds_two (map (fun row => nth k row 0) (o_mat res)) kr Rt kt (1 - Rt).
Proof.
  intros n phi_sym c sp g h m s l n_rays nx ny G surf z0 ca cb p outer fuel beams M SV mem idx a k r Rp Tp Al
    Hv Hg Hh Hm He Hphi n1 n2 Hn1 Hn2 Hs Ha Hb Hz Hxy Hrays Hl Hshots Hf Hk Hr theta Hent Hc.
  destruct (fresnel_matrix n phi_sym c sp g h m Hv Hg Hh Hm He s l n_rays nx ny G n1 n2 surf z0 ca cb outer fuel Hn1 Hn2 Hs Ha Hb Hz Hxy Hrays Hl Hshots p beams Hf)
    as [res [E H]]. destruct (H k r Hk Hr) as [H1 _]. destruct (H1 Hc) as (psi & kt & S1 & S2 & S3 & S4). clear H H1.
  assert (E1 : n1 = idx (fst (snell_media a s))) by (unfold n1; destruct s; reflexivity).
  assert (E2 : n2 = idx (snd (snell_media a s))) by (unfold n2; destruct s; reflexivity).
  destruct (column_below n phi_sym c sp g h Hv Hg Hh Hphi M SV mem idx a s k r Rp Tp Al ltac:(congruence) ltac:(congruence) Hk Hr Hent)
    as (col & f & psi' & kr & kt' & C1 & C2 & C3 & C4 & C5 & C6 & C7 & C8 & C9 & C10).
  { rewrite <- E1, <- E2. exact Hc. }
  assert (Ef : f = a_phi r).
  { destruct C3 as [[_ ->]|[Z _]]; [now apply (half_turn n phi_sym c sp g h m Hv Hg Hh Hm He _ _ Hr)|].
    rewrite (half_turn n phi_sym c sp g h m Hv Hg Hh Hm He _ _ Hr) in Z. destruct (row_range n phi_sym c sp g h Hv Hg Hh _ _ Hr). lra. }
  subst f. assert (Ek : kr = channel_row s h k) by (apply (same_bin n phi_sym c sp g h Hv Hg Hh _ _ _ Hr C5)). subst kr.
  rewrite <- E1, <- E2 in C4. assert (Ep : psi' = psi) by (apply (refracts_unique n1 n2 theta); auto). subst psi'.
  pose proof (psi_pos n phi_sym c sp g h m Hv Hg Hh Hm He s n1 n2 Hn1 k r Hk Hr psi S1) as Pp. pose proof PI_RGT_0.
  destruct (row_range n phi_sym c sp g h Hv Hg Hh _ _ Hr) as [_ B].
  destruct (C03_unique n phi_sym c sp g Hv Hg (onward s psi) (a_phi r)) as [k1 [_ [_ [_ U]]]]; [destruct S1 as [S1 _]; destruct s; cbn [onward]; lra|lra|].
  assert (kt' = kt) by (rewrite (U kt' C7); symmetry; now apply U). subst kt'.
  exists res, col, (channel_row s h k), kt. split; [exact E|]. split; [exact C1|]. split; [exact C9|exact S4].
Qed.
Print Assumptions C153_same_bins.

Example C153_case : exists g h surf l beams r Rp Tp Al, make_angle_vector 5 (PI / 2) (1 / 4) SpSin = Ok g /\ length (g_av g) = (2 * h)%nat /\ (0 < h)%nat /\
  flat_surface 0 1 1 surf /\ map fst l = regular_directions g (n_angles_of (h * (5 * 2)) 5 2) /\
  Forall2 (fired 1 3 surf (fresnel_decision 1 1 PolS)) l beams /\ nth_error (g_av g) (channel_row Front h 0) = Some r /\
  tmm_entry thin [] air_film_bulk Front (incoming Front (a_theta r)) = Ok (Rp, Tp, Al) /\ 1 * sin (incoming Front (a_theta r)) < 1.
Proof.
  destruct C152_case as (g & h & s & l & A & B & C & D & E & F & El & H & I).
  destruct (C152_fresnel 5 (PI / 2) (1 / 4) SpSin g h 4 Front l (h * (5 * 2)) 5 2 {| gb_out := fun _ _ => None; gb_frac := fun _ => None; gb_scale := fun _ => None |} 1 1 s 0 1 1 PolS 0 0) as [[beams Hb] _]; auto; try lra; try lia.
  destruct (nth_error (g_av g) (channel_row Front h 0)) as [r|] eqn:Hr.
  2:{ apply nth_error_None in Hr. cbn [channel_row] in Hr. lia. }
  destruct (theta_up 5 (PI / 2) (1 / 4) SpSin g h A B C Front 0 r D Hr) as [T1 T2].
  destruct (tmm_entry thin [] air_film_bulk Front (incoming Front (a_theta r))) as [[[Rp Tp] Al]|e] eqn:En.
  - exists g, h, s, l, beams, r, Rp, Tp, Al. split; auto. split; auto. split; auto. split; auto. split; auto. split; auto. split; auto. split; auto.
    rewrite Rmult_1_l, <- sin_PI2. apply sin_increasing_1; lra.
  - exfalso. destruct (thin_entry air_film_bulk Front (incoming Front (a_theta r)) eq_refl eq_refl) as [x Ex]. congruence.
Qed.
