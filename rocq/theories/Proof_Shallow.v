(* Rays meet gently sloping surfaces once (C190). *)
From Coq Require Import Reals List ZArith Bool Lia Lra Psatz.
From Verif Require Import Base Lib Model_Optics Model_OpticsC Spec_Optics Spec_OpticsC Model_RayIface Spec_RayIface Spec_Shallow
  Proof_Optics Proof_Geom Proof_OpticsProps Proof_OpticsEx Proof_RayIface.
Import ListNotations.
Open Scope R_scope.

(* ---------- angles between directions ---------- *)

Lemma cs_ineq a b : - (norm a * norm b) <= dot a b.
Proof.
  assert (H : dot a b * dot a b <= dot a a * dot b b).
  { destruct a as [a1 a2 a3], b as [b1 b2 b3]. unfold dot; cbn.
    pose proof (Rle_0_sqr (a1 * b2 - a2 * b1)). pose proof (Rle_0_sqr (a1 * b3 - a3 * b1)).
    pose proof (Rle_0_sqr (a2 * b3 - a3 * b2)). unfold Rsqr in *. nra. }
  rewrite <- !norm_sq in H. pose proof (norm_nonneg a). pose proof (norm_nonneg b).
  assert (0 <= norm a * norm b) by (apply Rmult_le_pos; auto). nra.
Qed.

Lemma angle_add a b c x y : unit a -> unit b -> unit c -> 0 <= x -> 0 <= y -> x + y <= PI ->
  cos x <= dot a b -> cos y <= dot b c -> cos (x + y) <= dot a c.
Proof.
  intros Ha Hb Hc Hx Hy Hxy Hab Hbc.
  assert (B : forall u v, unit u -> unit v -> -1 <= dot u v <= 1).
  { intros u v Hu Hv. pose proof (cs_ineq u v) as K1. pose proof (cs_ineq u (vneg v)) as K2.
    rewrite (norm_unit u), (norm_unit v) in K1 by auto.
    assert (Hn : unit (vneg v)) by (unfold unit in *; destruct v; unfold dot, vneg in *; cbn in *; lra).
    rewrite (norm_unit u), (norm_unit (vneg v)) in K2 by auto.
    assert (E : dot u (vneg v) = - dot u v) by (destruct u, v; unfold dot, vneg; cbn; ring). lra. }
  pose proof (B a b Ha Hb) as Bab. pose proof (B b c Hb Hc) as Bbc.
  set (p := dot a b) in *. set (q := dot b c) in *.
  set (ta := vsub a (vscale p b)). set (tc := vsub c (vscale q b)).
  assert (E1 : dot ta tc = dot a c - p * q).
  { unfold ta, tc. assert (X : dot (vsub a (vscale p b)) (vsub c (vscale q b)) =
      dot a c - q * dot a b - p * dot b c + p * q * dot b b).
    { destruct a, b, c; unfold dot, vsub, vscale; cbn; ring. } rewrite X. unfold unit in Hb. rewrite Hb. fold p q. ring. }
  assert (Ea : dot ta ta = 1 - p * p).
  { unfold ta. assert (X : dot (vsub a (vscale p b)) (vsub a (vscale p b)) = dot a a - 2 * p * dot a b + p * p * dot b b).
    { destruct a, b; unfold dot, vsub, vscale; cbn; ring. } rewrite X. unfold unit in *. rewrite Ha, Hb. fold p. ring. }
  assert (Ec : dot tc tc = 1 - q * q).
  { unfold tc. assert (X : dot (vsub c (vscale q b)) (vsub c (vscale q b)) = dot c c - 2 * q * dot b c + q * q * dot b b).
    { destruct b, c; unfold dot, vsub, vscale; cbn; ring. } rewrite X. unfold unit in *. rewrite Hc, Hb. fold q. ring. }
  pose proof (cs_ineq ta tc) as CS. rewrite E1 in CS.
  assert (Sx : norm ta = sin (acos p)).
  { rewrite sin_acos by lra. unfold norm. rewrite Ea. reflexivity. }
  assert (Sy : norm tc = sin (acos q)).
  { rewrite sin_acos by lra. unfold norm. rewrite Ec. reflexivity. }
  assert (Cp : cos (acos p) = p) by (apply cos_acos; lra).
  assert (Cq : cos (acos q) = q) by (apply cos_acos; lra).
  assert (Ax : 0 <= acos p <= x).
  { pose proof (acos_bound p). split; [lra|]. destruct (Rle_lt_dec (acos p) x); auto. exfalso.
    assert (cos (acos p) < cos x) by (apply cos_decreasing_1; lra). lra. }
  assert (Ay : 0 <= acos q <= y).
  { pose proof (acos_bound q). split; [lra|]. destruct (Rle_lt_dec (acos q) y); auto. exfalso.
    assert (cos (acos q) < cos y) by (apply cos_decreasing_1; lra). lra. }
  assert (K : cos (x + y) <= cos (acos p + acos q)).
  { destruct (Req_dec (x + y) (acos p + acos q)) as [->|]; [lra|]. apply Rlt_le, cos_decreasing_1; lra. }
  rewrite (cos_plus (acos p) (acos q)), Cp, Cq, <- Sx, <- Sy in K. lra.
Qed.

(* ---------- leaving ---------- *)

Lemma level_unit d : unit d -> level d = sqrt (1 - vz d * vz d).
Proof. unfold unit, dot, level. intros H. f_equal. lra. Qed.

(* how much faster a ray climbs than the surface *)
Lemma climbs side d phi s : pm1 side -> leaves_within side phi d -> 0 <= phi -> 0 <= s -> phi + s < PI / 2 ->
  cos (phi + s) / cos s <= IZR side * vz d - tan s * level d.
Proof.
  intros Hs [Hu Hc] Hphi Hs0 Hsum. pose proof PI_RGT_0.
  assert (Cs : 0 < cos s) by (apply cos_gt_0; lra). assert (Ss : 0 <= sin s) by (apply sin_ge_0; lra).
  assert (Cp : 0 < cos phi) by (apply cos_gt_0; lra). assert (Sp : 0 <= sin phi) by (apply sin_ge_0; lra).
  assert (HL : level d <= sin phi).
  { rewrite level_unit by auto. rewrite <- (sqrt_square (sin phi)) by auto. apply sqrt_le_1_alt.
    pose proof (sin2_cos2 phi) as E. unfold Rsqr in E.
    assert (vz d * vz d = (IZR side * vz d) * (IZR side * vz d)) by (destruct Hs as [-> | ->]; ring). nra. }
  unfold tan. rewrite cos_plus. apply (Rmult_le_reg_r (cos s)); auto.
  replace ((cos phi * cos s - sin phi * sin s) / cos s * cos s) with (cos phi * cos s - sin phi * sin s) by (field; lra).
  replace ((IZR side * vz d - sin s / cos s * level d) * cos s) with (IZR side * vz d * cos s - sin s * level d) by (field; lra).
  nra.
Qed.

Lemma mirrored_within side d d' N theta s : pm1 side -> heads side theta d -> unit N -> cos s <= IZR side * vz N ->
  unit d' -> mirror_law d d' N -> 0 <= theta -> 0 <= s -> theta + 2 * s <= PI ->
  leaves_within side (theta + 2 * s) d'.
Proof.
  intros Hs [Hu Hh] HN Ht Hu' [M1 M2] H0 H1 H2. split; auto.
  set (z := mkv 0 0 (IZR side)).
  assert (Uz : unit z) by (unfold unit, z, dot; cbn; destruct Hs as [-> | ->]; ring).
  assert (Ud : unit (vneg d)) by (unfold unit, vneg, dot in *; cbn; lra).
  assert (Ez : forall v, dot v z = IZR side * vz v) by (intros v; unfold dot, z; cbn; ring).
  assert (E1 : forall v, dot z v = IZR side * vz v) by (intros v; unfold dot, z; cbn; ring).
  assert (A1 : cos (theta + s) <= dot (vneg d) N).
  { apply (angle_add (vneg d) z N theta s); auto; try lra.
    - rewrite Ez. unfold vneg; cbn. lra.
    - rewrite E1. auto. }
  assert (A2 : dot d' N = dot (vneg d) N) by (rewrite M1; destruct d, N; unfold dot, vneg; cbn; ring).
  replace (theta + 2 * s) with (theta + s + s) by ring. rewrite <- Ez.
  apply (angle_add d' N z (theta + s) s); auto; try lra. rewrite Ez. lra.
Qed.

Lemma norm_add a b : norm (vadd a b) <= norm a + norm b.
Proof.
  pose proof (norm_nonneg a). pose proof (norm_nonneg b). pose proof (norm_nonneg (vadd a b)).
  apply Rsqr_incr_0_var; [|lra]. unfold Rsqr. rewrite norm_sq.
  pose proof (cs_ineq a (vneg b)) as K.
  assert (Nb : norm (vneg b) = norm b) by (unfold norm; f_equal; destruct b; unfold dot, vneg; cbn; ring).
  rewrite Nb in K. assert (E : dot a (vneg b) = - dot a b) by (destruct a, b; unfold dot, vneg; cbn; ring).
  assert (X : dot (vadd a b) (vadd a b) = dot a a + 2 * dot a b + dot b b) by (destruct a, b; unfold dot, vadd; cbn; ring).
  rewrite X, <- !norm_sq. nra.
Qed.

Lemma norm_scale c a : 0 <= c -> norm (vscale c a) = c * norm a.
Proof.
  intros Hc. unfold norm. rewrite dot_scale_scale. rewrite sqrt_mult by (try apply dot_nonneg; nra).
  rewrite sqrt_square; auto.
Qed.

Lemma refracted_within side d d' N theta s n0 n1 : pm1 side -> heads side theta d -> unit N -> cos s <= IZR side * vz N ->
  unit d' -> snell_law n0 n1 d d' N -> 0 < n0 <= n1 -> 0 <= theta -> 0 <= s -> theta + 2 * s < PI / 2 ->
  dot d N < 0 -> leaves_within (- side) (theta + 2 * s) d'.
Proof.
  intros Hs [Hu Hh] HN Ht Hu' [M1 M2] Hn H0 H1 H2 Hd. split; auto. pose proof PI_RGT_0.
  set (k := n0 / n1) in *.
  assert (Hk : 0 <= k <= 1).
  { unfold k. split; [apply Rlt_le, Rdiv_lt_0_compat; lra|]. apply (Rmult_le_reg_r n1); [lra|]. field_simplify; lra. }
  set (p := dot d N) in *. set (q := dot d' N) in *.
  assert (Hq : q < 0) by nra.
  set (c2 := k * p - q).
  assert (Ed : d' = vadd (vscale k d) (vscale c2 (vneg N))).
  { unfold tang in M1. fold p q in M1. unfold c2. clearbody p q.
    pose proof (f_equal vx M1) as X. pose proof (f_equal vy M1) as Y. pose proof (f_equal vz M1) as Z.
    unfold vadd, vscale, vneg, vsub in *. cbn [vx vy vz] in *. apply vec_ext; cbn [vx vy vz]; lra. }
  assert (Tsq : 1 - q * q = k * k * (1 - p * p)).
  { pose proof (tang_sq d' N HN) as A. pose proof (tang_sq d N HN) as B. rewrite M1, dot_scale_scale, B in A.
    unfold unit in *. fold p q in A, B. rewrite Hu, Hu' in A. lra. }
  assert (P1 : p * p <= 1).
  { pose proof (dot_nonneg (tang d N)) as B. rewrite (tang_sq d N HN) in B. unfold unit in Hu. fold p in B. lra. }
  assert (C2 : 0 <= c2).
  { unfold c2. assert (k * k <= 1) by nra. assert (k * k * (1 - p * p) <= 1 * (1 - p * p)) by (apply Rmult_le_compat_r; lra). assert (p * p <= q * q) by lra. assert (- p <= - q) by nra. nra. }
  assert (Nn : unit (vneg N)) by (unfold unit, vneg, dot in *; cbn; lra).
  assert (Sum : 1 <= k + c2).
  { pose proof (norm_add (vscale k d) (vscale c2 (vneg N))) as A. rewrite <- Ed in A.
    rewrite !norm_scale in A by lra. rewrite (norm_unit d'), (norm_unit d), (norm_unit (vneg N)) in A by auto. lra. }
  assert (C : 0 <= cos (theta + 2 * s)) by (apply cos_ge_0; lra).
  assert (Ca : cos (theta + 2 * s) <= cos theta).
  { destruct (Req_dec s 0) as [->|]; [replace (theta + 2 * 0) with theta by ring; lra|]. apply Rlt_le, cos_decreasing_1; lra. }
  assert (Cb : cos (theta + 2 * s) <= cos s).
  { destruct (Req_dec (theta + 2 * s) s) as [->|]; [lra|]. apply Rlt_le, cos_decreasing_1; lra. }
  rewrite opp_IZR.
  assert (Ez : - IZR side * vz d' = k * (- (IZR side * vz d)) + c2 * (IZR side * vz N)).
  { rewrite Ed. unfold vadd, vscale, vneg; cbn. ring. }
  rewrite Ez, Hh. nra.
Qed.

Lemma Rabs_le_inv x a : Rabs x <= a -> - a <= x <= a.
Proof. intros H. pose proof (Rle_abs x). pose proof (Rle_abs (- x)). rewrite Rabs_Ropp in *. lra. Qed.

(* ---------- no further hit ---------- *)

Section Away.
  Variables (f : R -> R -> R) (L eta : R) (side : Z).
  Hypothesis HL : 0 <= L.
  Hypothesis Hf : gentle f L.
  Hypothesis Hs : pm1 side.

  Definition off_by (r : vec) : Prop := eta < IZR side * (vz r - f (vx r) (vy r)).

  Lemma rises r d t g : 0 <= t -> g < IZR side * (vz r - f (vx r) (vy r)) + t * (IZR side * vz d - L * level d) ->
    let q := vadd r (vscale t d) in g < IZR side * (vz q - f (vx q) (vy q)).
  Proof using HL Hf Hs.
    intros Ht Hg. cbn. pose proof (Hf (vx r + t * vx d) (vy r + t * vy d) (vx r) (vy r)) as K.
    replace (sqrt _) with (t * level d) in K.
    2:{ unfold level. rewrite <- (sqrt_square t) at 1 by auto. rewrite <- sqrt_mult by nra. f_equal. ring. }
    apply Rabs_le_inv in K. destruct Hs as [-> | ->]; nra.
  Qed.

  Lemma misses r d l : off_by r -> 0 <= IZR side * vz d - L * level d -> near_graph f eta l -> check_intersect r d l = None.
  Proof using HL Hf Hs.
    intros Ho Hc Hn. apply check_intersect_none. intros T t HT (Ht & Hon & _).
    pose proof (Hn T _ HT Hon) as K. unfold off_by in Ho.
    pose proof (rises r d t eta ltac:(lra)) as K2. cbn in K2.
    assert (0 <= t * (IZR side * vz d - L * level d)) by (apply Rmult_le_pos; lra).
    specialize (K2 ltac:(lra)). cbn in K. apply Rabs_le_inv in K. destruct Hs as [-> | ->]; lra.
  Qed.

  Lemma moved r Lx Ly w : periodic f Lx Ly -> off_by r -> off_by (vadd r (translation Lx Ly w)).
  Proof using.
    intros [Px Py] Ho. unfold off_by in *.
    assert (Px' : forall x y, f (x - Lx) y = f x y) by (intros x y; rewrite <- (Px (x - Lx) y); f_equal; ring).
    assert (Py' : forall x y, f x (y - Ly) = f x y) by (intros x y; rewrite <- (Py x (y - Ly)); f_equal; ring).
    destruct w as [|[|[|[|w]]]]; unfold translation; cbn [nth];
      [| | | | destruct w]; unfold vadd; cbn [vx vy vz]; rewrite ?Rplus_0_r; auto;
      rewrite ?Px, ?Py; auto; fold (Rminus (vx r) Lx); fold (Rminus (vy r) Ly); rewrite ?Px', ?Py'; auto.
  Qed.
End Away.

(* after a hit: two misses, then the end *)
Lemma leaves_at_once E f s eta d0z p d' side' th n i1 m ref fuel phi :
  gentle f (tan s) -> periodic f (e_Lx E) (e_Ly E) -> (forall k, near_graph f eta (s_tris (e_surf E k))) ->
  0 <= s -> 0 <= phi -> phi + s < PI / 2 -> 2 * eta * cos s < 1 / 10 ^ 9 * cos (phi + s) ->
  pm1 side' -> leaves_within side' phi d' -> Rabs (vz p - f (vx p) (vy p)) <= eta ->
  irun (2 + fuel) E d0z {| i_r := Some (vadd p (vscale (1 / 10 ^ 9) d')); i_d := d'; i_side := side'; i_checked := false;
    i_misses := m; i_i1 := S i1; i_theta := Some th; i_nint := n; i_ref := ref |} =
  Some (Ok {| r_out := if Z.eqb (sgn d0z) (sgn (vz d')) then OTransmitted (polar d') else OReflected (polar d');
    r_pos := option_map (wrap_cell (e_Lx E) (e_Ly E)) (Some (vadd (vadd p (vscale (1 / 10 ^ 9) d'))
       (translation (e_Lx E) (e_Ly E) (fst (exit_side (vadd p (vscale (1 / 10 ^ 9) d')) d' (e_Lx E) (e_Ly E))))));
    r_dir := d'; r_loc := th; r_nint := n; r_side := side' |}).
Proof.
  intros Hg Hp Hn Hs0 Hphi Hsum Heta Hs Hl Hpt. pose proof PI_RGT_0.
  assert (Cs : 0 < cos s) by (apply cos_gt_0; lra).
  assert (Cps : 0 < cos (phi + s)) by (apply cos_gt_0; lra).
  assert (HL : 0 <= tan s). { unfold tan. apply Rmult_le_pos; [apply sin_ge_0; lra|]. apply Rlt_le, Rinv_0_lt_compat; auto. }
  pose proof (climbs side' d' phi s Hs Hl Hphi Hs0 Hsum) as Hc.
  set (kap := IZR side' * vz d' - tan s * level d') in *.
  assert (Kp : 0 < kap). { apply (Rlt_le_trans _ (cos (phi + s) / cos s)); auto. apply Rdiv_lt_0_compat; auto. }
  assert (K2 : 2 * eta < 1 / 10 ^ 9 * kap).
  { apply (Rlt_le_trans _ (1 / 10 ^ 9 * (cos (phi + s) / cos s))); [|apply Rmult_le_compat_l; lra].
    apply (Rmult_lt_reg_r (cos s)); auto.
    replace (1 / 10 ^ 9 * (cos (phi + s) / cos s) * cos s) with (1 / 10 ^ 9 * cos (phi + s)) by (field; lra). auto. }
  set (q := vadd p (vscale (1 / 10 ^ 9) d')).
  assert (Oq : off_by f eta side' q).
  { apply (rises f (tan s) side' HL Hg Hs); [lra|]. apply Rabs_le_inv in Hpt. fold kap.
    destruct Hs as [-> | ->]; lra. }
  set (q' := vadd q (translation (e_Lx E) (e_Ly E) (fst (exit_side q d' (e_Lx E) (e_Ly E))))).
  assert (Oq' : off_by f eta side' q') by (apply moved; auto).
  cbn [irun plus].
  unfold istep at 1. cbn [i_r i_d i_side i_checked i_misses i_i1 i_theta i_nint i_ref check_pos].
  rewrite (misses f (tan s) eta side' HL Hg Hs q d') by (auto; fold kap; lra).
  cbn [negb Nat.ltb Nat.leb]. fold q'.
  unfold istep at 1. cbn [i_r i_d i_side i_checked i_misses i_i1 i_theta i_nint i_ref check_pos].
  rewrite (misses f (tan s) eta side' HL Hg Hs q' d') by (auto; fold kap; lra).
  cbn [negb]. replace (still_inside side' d' (Some q') (e_surf E (S ref))) with false; [reflexivity|].
  assert (Hv : 0 < IZR side' * vz d').
  { destruct Hl as [_ Hl]. assert (0 < cos phi) by (apply cos_gt_0; lra). lra. }
  unfold still_inside. destruct Hs as [-> | ->]; cbn [Z.eqb andb orb Pos.eqb].
  - rewrite orb_false_r. symmetry. apply andb_false_intro1. apply Rltb_false. lra.
  - symmetry. apply andb_false_intro1. apply Rltb_false. lra.
Qed.

(* ---------- up to the first hit ---------- *)

Definition waiting (E : env) (r : option vec) (d : vec) (side : Z) (n k : nat) : istate :=
  {| i_r := start_pos E r d k; i_d := d; i_side := side; i_checked := false; i_misses := k; i_i1 := 0;
     i_theta := None; i_nint := n; i_ref := 0 |}.

Lemma waits E r d side n d0z : forall k j fuel, (j + k <= 100)%nat ->
  (forall i, (j <= i < j + k)%nat -> check_pos (start_pos E r d i) d (e_surf E 0) = None) ->
  irun (k + fuel) E d0z (waiting E r d side n j) = irun fuel E d0z (waiting E r d side n (j + k)).
Proof.
  induction k as [|k IH]; intros j fuel Hj Hm; [rewrite Nat.add_0_r; reflexivity|].
  replace (j + S k)%nat with (S j + k)%nat by lia. rewrite <- (IH (S j) fuel) by (try lia; intros; apply Hm; lia).
  cbn [plus irun]. unfold istep, waiting. cbn [i_r i_d i_side i_checked i_misses i_i1 i_theta i_nint i_ref].
  rewrite Hm by lia. cbn [negb Nat.ltb Nat.leb].
  replace (Nat.leb j 99) with true by (symmetry; apply Nat.leb_le; lia).
  destruct (e_xy E j) as [x y] eqn:Ex.
  f_equal. cbn [start_pos]. rewrite Ex. cbn [fst snd]. destruct (Rltb (vz d) 0); reflexivity.
Qed.

(* the hit *)
Lemma hits E r d side n k h fuel d' side' A : first_met E r d k h ->
  e_dec E side (h_theta h) d (vscale (IZR side) (h_N h)) (e_rnd E n) = (d', side', A) ->
  single_interface_check (k + S fuel) E r d side n =
  match A with
  | Some A => Some (Ok {| r_out := OAbsorbed A; r_pos := Some (vadd (h_point h) (vscale (1 / 10 ^ 9) d')); r_dir := d';
      r_loc := h_theta h; r_nint := S n; r_side := side' |})
  | None => irun fuel E (vz d) {| i_r := Some (vadd (h_point h) (vscale (1 / 10 ^ 9) d')); i_d := d'; i_side := side';
      i_checked := false; i_misses := k; i_i1 := 1; i_theta := Some (h_theta h); i_nint := S n; i_ref := 0 |}
  end.
Proof.
  intros (Hk & Hh & Hm) Hd. unfold single_interface_check.
  change (istart r d side n) with (waiting E r d side n 0).
  rewrite waits by (try lia; intros i Hi; apply Hm; lia). cbn [plus irun].
  unfold istep, waiting. cbn [i_r i_d i_side i_checked i_misses i_i1 i_theta i_nint i_ref]. rewrite Hh, Hd.
  destruct A; reflexivity.
Qed.

(* what is known about the facet that is hit *)
Lemma facet E s eta f r d k h side theta : pm1 side -> heads side theta d -> 0 <= theta -> 0 <= s -> theta + s < PI / 2 ->
  near_graph f eta (s_tris (e_surf E 0)) -> tilted_by s (s_tris (e_surf E 0)) ->
  first_met E r d k h ->
  let N := vscale (IZR side) (h_N h) in
  unit N /\ cos s <= IZR side * vz N /\ dot d N = - cos (Rabs (h_theta h)) /\
  0 <= Rabs (h_theta h) < PI / 2 /\ Rabs (h_theta h) <= theta + s /\
  Rabs (vz (h_point h) - f (vx (h_point h)) (vy (h_point h))) <= eta.
Proof.
  intros Hs [Hu Hh] H0 H1 H2 Hn Ht (_ & Hc & _) N. pose proof PI_RGT_0.
  destruct (start_pos E r d k) as [p|]; [|discriminate]. cbn [check_pos] in Hc.
  destruct (sound_nearest _ _ _ _ Hu Hc) as (T & t & HT & Hmt & _ & Hp & HUN & O1 & O2 & O3 & _).
  destruct (hit_facts _ _ _ _ side Hu Hc Hs) as (U & Hth & Hcos & Hne). fold N in U, Hcos, Hne.
  assert (V : cos s <= IZR side * vz N).
  { unfold N. cbn. replace (IZR side * (IZR side * vz (h_N h))) with (vz (h_N h)) by (destruct Hs as [-> | ->]; ring).
    eapply Ht; eauto. }
  set (z := mkv 0 0 (IZR side)).
  assert (Uz : unit z) by (unfold unit, z, dot; cbn; destruct Hs as [-> | ->]; ring).
  assert (Ud : unit (vneg d)) by (unfold unit, vneg, dot in *; cbn; lra).
  assert (A1 : cos (theta + s) <= dot (vneg d) N).
  { apply (angle_add (vneg d) z N theta s); auto; try lra; unfold dot, z, vneg; cbn.
    - replace (- vx d * 0 + - vy d * 0 + - vz d * IZR side) with (- (IZR side * vz d)) by ring. lra.
    - unfold N in V. cbn in V. lra. }
  assert (En : dot (vneg d) N = - dot d N) by (unfold dot, vneg; cbn; ring).
  assert (Cp : 0 < cos (theta + s)) by (apply cos_gt_0; lra).
  rewrite (Rabs_left1 (dot d N)) in Hcos by lra.
  do 2 (split; auto). split; [lra|]. split; auto. split.
  - destruct (Rle_lt_dec (Rabs (h_theta h)) (theta + s)); auto. exfalso.
    assert (cos (Rabs (h_theta h)) < cos (theta + s)) by (apply cos_decreasing_1; lra). lra.
  - rewrite Hp. apply (Hn T); auto. apply Hmt.
Qed.

Lemma sgn_opp x y : x * y < 0 -> Z.eqb (sgn x) (sgn y) = false.
Proof.
  intros H. unfold sgn. destruct (Rltb x 0) eqn:E1; [apply Rltb_true in E1|apply Rltb_false in E1];
  (destruct (Rltb y 0) eqn:E2; [apply Rltb_true in E2|apply Rltb_false in E2]); try nra;
  destruct (Rltb 0 x) eqn:E3; destruct (Rltb 0 y) eqn:E4; try reflexivity;
  rewrite ?Rltb_true, ?Rltb_false in *; nra.
Qed.
Lemma sgn_same x y : 0 < x * y -> Z.eqb (sgn x) (sgn y) = true.
Proof.
  intros H. unfold sgn. destruct (Rltb x 0) eqn:E1; [apply Rltb_true in E1|apply Rltb_false in E1];
  (destruct (Rltb y 0) eqn:E2; [apply Rltb_true in E2|apply Rltb_false in E2]); try reflexivity; try nra;
  destruct (Rltb 0 x) eqn:E3; destruct (Rltb 0 y) eqn:E4; try reflexivity;
  rewrite ?Rltb_true, ?Rltb_false in *; nra.
Qed.

Lemma polar_unit d : unit d -> polar d = acos (vz d).
Proof. intros H. unfold polar. rewrite (norm_unit d H). f_equal. field. Qed.

Section Once.
  Variables (E : env) (s eta theta : R) (side : Z) (d : vec).
  Hypothesis Hs : pm1 side.
  Hypothesis Hh : heads side theta d.
  Hypothesis Ht : 0 <= theta.
  Hypothesis H0 : 0 <= s.
  Hypothesis Hsum : theta + 3 * s < PI / 2.
  Hypothesis Heta : 2 * eta * cos s < 1 / 10 ^ 9 * cos (theta + 3 * s).
  Hypothesis HE : shallow E s eta.

  Lemma bounce r n k h fuel d' : first_met E r d k h -> (k + 3 <= fuel)%nat ->
    e_dec E side (h_theta h) d (vscale (IZR side) (h_N h)) (e_rnd E n) = (d', side, None) ->
    unit d' -> mirror_law d d' (vscale (IZR side) (h_N h)) ->
    exists res, single_interface_check fuel E r d side n = Some (Ok res) /\ r_nint res = S n /\ r_loc res = h_theta h /\
      bounced side (theta + 2 * s) d (vscale (IZR side) (h_N h)) res.
  Proof using All.
    intros Hk Hf Hd Hu Hm. pose proof PI_RGT_0. destruct HE as (f & Hg & Hp & Hn).
    destruct (facet E s eta f r d k h side theta) as (UN & VN & DN & TH & TL & HP); auto; try lra; try apply Hn.
    assert (Hl : leaves_within side (theta + 2 * s) d').
    { apply (mirrored_within side d d' _ theta s Hs Hh UN VN Hu Hm); lra. }
    replace fuel with (k + S (2 + (fuel - k - 3)))%nat by lia.
    rewrite (hits E r d side n k h _ d' side None Hk Hd).
    rewrite (leaves_at_once E f s eta (vz d) (h_point h) d' side (h_theta h) (S n) 0 k 0 _ (theta + 2 * s)); auto; try lra;
      try (intros; apply Hn).
    2:{ replace (theta + 2 * s + s) with (theta + 3 * s) by ring. auto. }
    eexists. split; [reflexivity|]. cbn [r_nint r_loc]. do 2 (split; auto). split; [|auto].
    cbn [r_out r_dir]. rewrite sgn_opp; [rewrite polar_unit by auto; auto|].
    destruct Hh as [_ Hh1]. destruct Hl as [_ Hl1].
    assert (0 < cos theta) by (apply cos_gt_0; lra). assert (0 < cos (theta + 2 * s)) by (apply cos_gt_0; lra).
    destruct Hs as [-> | ->]; nra.
  Qed.

  Lemma pass r n k h fuel d' n0 n1 : first_met E r d k h -> (k + 3 <= fuel)%nat -> 0 < n0 <= n1 ->
    e_dec E side (h_theta h) d (vscale (IZR side) (h_N h)) (e_rnd E n) = (d', (- side)%Z, None) ->
    unit d' -> snell_law n0 n1 d d' (vscale (IZR side) (h_N h)) ->
    exists res, single_interface_check fuel E r d side n = Some (Ok res) /\ r_nint res = S n /\ r_loc res = h_theta h /\
      passed side (theta + 2 * s) n0 n1 d (vscale (IZR side) (h_N h)) res.
  Proof using All.
    intros Hk Hf Hnn Hd Hu Hm. pose proof PI_RGT_0. destruct HE as (f & Hg & Hp & Hn).
    destruct (facet E s eta f r d k h side theta) as (UN & VN & DN & TH & TL & HP); auto; try lra; try apply Hn.
    assert (Cx : 0 < cos (Rabs (h_theta h))) by (apply cos_gt_0; lra).
    assert (Hl : leaves_within (- side) (theta + 2 * s) d').
    { apply (refracted_within side d d' _ theta s n0 n1 Hs Hh UN VN Hu Hm); lra. }
    assert (Hs' : pm1 (- side)) by (destruct Hs as [-> | ->]; [right|left]; reflexivity).
    replace fuel with (k + S (2 + (fuel - k - 3)))%nat by lia.
    rewrite (hits E r d side n k h _ d' (- side)%Z None Hk Hd).
    rewrite (leaves_at_once E f s eta (vz d) (h_point h) d' (- side)%Z (h_theta h) (S n) 0 k 0 _ (theta + 2 * s)); auto; try lra;
      try (intros; apply Hn).
    2:{ replace (theta + 2 * s + s) with (theta + 3 * s) by ring. auto. }
    eexists. split; [reflexivity|]. cbn [r_nint r_loc]. do 2 (split; auto). split; [|auto].
    cbn [r_out r_dir]. rewrite sgn_same; [rewrite polar_unit by auto; auto|].
    destruct Hh as [_ Hh1]. destruct Hl as [_ Hl1]. rewrite opp_IZR in Hl1.
    assert (0 < cos theta) by (apply cos_gt_0; lra). assert (0 < cos (theta + 2 * s)) by (apply cos_gt_0; lra).
    destruct Hs as [-> | ->]; nra.
  Qed.
End Once.

Section OnceThms.
  Variables (E : env) (s eta theta : R) (side : Z) (d : vec) (r : option vec) (n k : nat) (h : hit) (fuel : nat) (ni nj : R).
  Hypothesis Hs : pm1 side.
  Hypothesis Hh : heads side theta d.
  Hypothesis Ht : 0 <= theta.
  Hypothesis H0 : 0 <= s.
  Hypothesis Hsum : theta + 3 * s < PI / 2.
  Hypothesis Heta : 2 * eta * cos s < 1 / 10 ^ 9 * cos (theta + 3 * s).
  Hypothesis HE : shallow E s eta.
  Hypothesis Hi : 0 < ni.
  Hypothesis Hj : 0 < nj.
  Hypothesis Hk : first_met E r d k h.
  Hypothesis Hfuel : (k + 3 <= fuel)%nat.
  Let N := vscale (IZR side) (h_N h).
  Let x := Rabs (h_theta h).
  Let n0 := if Z.eqb side 1 then ni else nj.
  Let n1 := if Z.eqb side 1 then nj else ni.

  Lemma once_facet : unit N /\ cos s <= IZR side * vz N /\ dot d N = - cos x /\ 0 <= x < PI / 2 /\ x <= theta + s.
  Proof using All.
    destruct HE as (f & _ & _ & Hn).
    destruct (facet E s eta f r d k h side theta) as (UN & VN & DN & TH & TL & HP); auto; try lra; try apply Hn.
  Qed.

  Lemma once_fresnel p : e_dec E = fresnel_decision ni nj p -> e_rnd E n < 1 ->
    (e_rnd E n <= fresnel_R n0 n1 x p -> exists res, single_interface_check fuel E r d side n = Some (Ok res) /\
       r_nint res = S n /\ r_loc res = h_theta h /\ bounced side (theta + 2 * s) d N res) /\
    (fresnel_R n0 n1 x p < e_rnd E n -> n0 <= n1 -> exists res, single_interface_check fuel E r d side n = Some (Ok res) /\
       r_nint res = S n /\ r_loc res = h_theta h /\ passed side (theta + 2 * s) n0 n1 d N res).
  Proof using All.
    intros Hd Hr. destruct once_facet as (UN & VN & DN & TH & TL).
    assert (P0 : 0 < n0) by (unfold n0; destruct (Z.eqb side 1); auto).
    assert (P1 : 0 < n1) by (unfold n1; destruct (Z.eqb side 1); auto).
    assert (Hu : unit d) by apply Hh.
    pose proof (decide_cases n0 n1 x d N side p (e_rnd E n) P0 P1 TH Hu UN DN Hr) as K.
    assert (ED : e_dec E side (h_theta h) d N (e_rnd E n) = decide_RT_Fresnel n0 n1 x d N side p (e_rnd E n)).
    { rewrite Hd. unfold fresnel_decision, n0, n1, x. destruct (Z.eqb side 1); apply decide_abs. }
    destruct (decide_RT_Fresnel n0 n1 x d N side p (e_rnd E n)) as [[d' s'] A]. destruct K as (-> & Hu' & K).
    split; intros HR.
    - destruct K as [(_ & -> & Hm)|(X & _)]; [|lra].
      apply (bounce E s eta theta side d Hs Hh Ht H0 Hsum Heta HE r n k h fuel d'); auto.
    - intros Hle. destruct K as [(X & _)|(_ & -> & _ & Hm)]; [lra|].
      apply (pass E s eta theta side d Hs Hh Ht H0 Hsum Heta HE r n k h fuel d'); auto.
  Qed.

  Lemma once_table ent : e_dec E = table_decision ni nj ent -> n0 <= n1 ->
    let e := ent side x in let u := e_rnd E n in
    exists res, single_interface_check fuel E r d side n = Some (Ok res) /\ r_nint res = S n /\ r_loc res = h_theta h /\
      (u <= te_R e -> bounced side (theta + 2 * s) d N res) /\
      (te_R e < u <= te_R e + te_T e -> passed side (theta + 2 * s) n0 n1 d N res) /\
      (te_R e < u -> te_R e + te_T e < u -> r_out res = OAbsorbed (te_A e)).
  Proof using All.
    intros Hd Hle e u. destruct once_facet as (UN & VN & DN & TH & TL). pose proof PI_RGT_0.
    assert (P0 : 0 < n0) by (unfold n0; destruct (Z.eqb side 1); auto).
    assert (P1 : 0 < n1) by (unfold n1; destruct (Z.eqb side 1); auto).
    assert (Hu : unit d) by apply Hh.
    assert (Hsn : n0 * sin x < n1).
    { assert (sin x < 1).
      { replace 1 with (sin (PI / 2)) by apply sin_PI2. apply sin_increasing_1; lra. }
      nra. }
    pose proof (interaction_TMM e n0 n1 x d N side u P0 P1 TH Hu UN DN Hsn) as K.
    assert (ED : e_dec E side (h_theta h) d N u = decide_RT_TMM e n0 n1 d N side u).
    { rewrite Hd. unfold table_decision, n0, n1, e, x. destruct (Z.eqb side 1); auto. }
    unfold decide_RT_TMM in K, ED.
    destruct (Rleb u (te_R e)) eqn:C1; [apply Rleb_true in C1|apply Rleb_false in C1].
    - destruct K as (Hu' & [(_ & _ & Hm)|[(_ & X & _)|(X & _)]]); [|destruct Hs as [-> | ->]; discriminate|discriminate].
      destruct (bounce E s eta theta side d Hs Hh Ht H0 Hsum Heta HE r n k h fuel _ Hk Hfuel ED Hu' Hm) as (res & R1 & R2 & R3 & R4).
      exists res. do 4 (split; auto). split; intros; exfalso; lra.
    - destruct (Rltb (te_R e) u && Rleb u (te_R e + te_T e)) eqn:C2.
      + apply andb_prop in C2. destruct C2 as [C2 C3]. apply Rleb_true in C3.
        destruct K as (Hu' & [(_ & X & _)|[(_ & _ & Hm)|(X & _)]]); [destruct Hs as [-> | ->]; discriminate| |discriminate].
        destruct (pass E s eta theta side d Hs Hh Ht H0 Hsum Heta HE r n k h fuel _ n0 n1 Hk Hfuel (conj P0 Hle) ED Hu' Hm) as (res & R1 & R2 & R3 & R4).
        exists res. do 3 (split; auto). split; [intros; exfalso; lra|]. split; auto. intros; exfalso; lra.
      + replace fuel with (k + S (fuel - k - 1))%nat by lia. rewrite (hits E r d side n k h _ _ _ _ Hk ED).
        eexists. split; [reflexivity|]. cbn [r_nint r_loc r_out]. do 2 (split; auto). split; [intros; exfalso; lra|].
        split; [|auto]. intros [X Y]. exfalso. apply andb_false_iff in C2. destruct C2 as [C2|C2];
          [apply Rltb_false in C2|apply Rleb_false in C2]; lra.
  Qed.
End OnceThms.

(* ---------- transmission into any medium ---------- *)

Lemma refracted_below side d d' N x y s n0 n1 : pm1 side -> unit d -> unit N -> cos s <= IZR side * vz N -> unit d' ->
  snell_law n0 n1 d d' N -> 0 < n0 -> 0 < n1 -> dot d N = - cos x -> 0 <= x < PI / 2 -> n0 * sin x <= n1 * sin y ->
  0 <= y <= PI / 2 -> 0 <= s -> y + s <= PI -> leaves_within (- side) (y + s) d'.
Proof.
  intros Hs Hu HN Ht Hu' [M1 M2] P0 P1 D Hx Hsn Hy H0 H1. split; auto. pose proof PI_RGT_0.
  set (q := dot d' N) in *. rewrite D in M2.
  assert (Cx : 0 < cos x) by (apply cos_gt_0; lra). assert (Sx : 0 <= sin x) by (apply sin_ge_0; lra).
  assert (Sy : 0 <= sin y) by (apply sin_ge_0; lra). assert (Cy : 0 <= cos y) by (apply cos_ge_0; lra).
  assert (Hq : q < 0) by nra.
  assert (Tsq : 1 - q * q = n0 / n1 * (n0 / n1) * (1 - cos x * cos x)).
  { pose proof (tang_sq d' N HN) as A. pose proof (tang_sq d N HN) as B. rewrite M1, dot_scale_scale, B, D in A.
    unfold unit in *. fold q in A. rewrite Hu, Hu' in A. lra. }
  assert (Ks : 0 <= n0 / n1 * sin x <= sin y).
  { split; [apply Rmult_le_pos; [apply Rlt_le, Rdiv_lt_0_compat; auto|auto]|]. apply (Rmult_le_reg_l n1); auto.
    replace (n1 * (n0 / n1 * sin x)) with (n0 * sin x) by (field; lra). auto. }
  assert (Q2 : cos y <= - q).
  { pose proof (sin2_cos2 x) as E1. pose proof (sin2_cos2 y) as E2. unfold Rsqr in *.
    assert (E3 : 1 - q * q = (n0 / n1 * sin x) * (n0 / n1 * sin x)) by (rewrite Tsq; replace (1 - cos x * cos x) with (sin x * sin x) by lra; ring).
    assert ((n0 / n1 * sin x) * (n0 / n1 * sin x) <= sin y * sin y) by (apply Rmult_le_compat; lra).
    assert (cos y * cos y <= q * q) by lra. nra. }
  set (z := mkv 0 0 (- IZR side)).
  assert (Uz : unit z) by (unfold unit, z, dot; cbn; destruct Hs as [-> | ->]; ring).
  assert (Un : unit (vneg N)) by (unfold unit, vneg, dot in *; cbn; lra).
  pose proof (angle_add d' (vneg N) z y s Hu' Un Uz) as A. rewrite opp_IZR.
  replace (- IZR side * vz d') with (dot d' z) by (unfold dot, z; cbn; ring).
  apply A; try lra.
  - replace (dot d' (vneg N)) with (- q) by (unfold q, dot, vneg; cbn; ring). lra.
  - replace (dot (vneg N) z) with (IZR side * vz N) by (unfold dot, vneg, z; cbn; ring). lra.
Qed.

Section ExitThms.
  Variables (E : env) (s eta theta y : R) (side : Z) (d : vec) (r : option vec) (n k : nat) (h : hit) (fuel : nat) (ni nj : R).
  Hypothesis Hs : pm1 side.
  Hypothesis Hh : heads side theta d.
  Hypothesis Ht : 0 <= theta.
  Hypothesis H0 : 0 <= s.
  Hypothesis Hts : theta + s < PI / 2.
  Hypothesis Hy : 0 <= y.
  Hypothesis Hsum : y + 2 * s < PI / 2.
  Hypothesis Heta : 2 * eta * cos s < 1 / 10 ^ 9 * cos (y + 2 * s).
  Hypothesis HE : shallow E s eta.
  Hypothesis Hi : 0 < ni.
  Hypothesis Hj : 0 < nj.
  Hypothesis Hk : first_met E r d k h.
  Hypothesis Hfuel : (k + 3 <= fuel)%nat.
  Let N := vscale (IZR side) (h_N h).
  Let x := Rabs (h_theta h).
  Let n0 := if Z.eqb side 1 then ni else nj.
  Let n1 := if Z.eqb side 1 then nj else ni.
  Hypothesis Hsn : n0 * sin (theta + s) <= n1 * sin y.

  Lemma exit_facts : unit N /\ cos s <= IZR side * vz N /\ dot d N = - cos x /\ 0 <= x < PI / 2 /\ 0 < n0 /\ 0 < n1 /\
    n0 * sin x <= n1 * sin y /\ n0 * sin x < n1.
  Proof using All.
    destruct HE as (f & _ & _ & Hn). pose proof PI_RGT_0.
    destruct (facet E s eta f r d k h side theta) as (UN & VN & DN & TH & TL & HP); auto; try lra; try apply Hn.
    fold N x in UN, VN, DN, TH, TL.
    assert (P0 : 0 < n0) by (unfold n0; destruct (Z.eqb side 1); auto).
    assert (P1 : 0 < n1) by (unfold n1; destruct (Z.eqb side 1); auto).
    assert (sin x <= sin (theta + s)) by (destruct (Req_dec x (theta + s)) as [->|]; [lra|apply Rlt_le, sin_increasing_1; lra]).
    assert (Hx : n0 * sin x <= n1 * sin y) by nra.
    assert (sin y < 1) by (replace 1 with (sin (PI / 2)) by apply sin_PI2; apply sin_increasing_1; lra).
    repeat (split; auto); nra.
  Qed.

  Lemma passes d' : e_dec E side (h_theta h) d N (e_rnd E n) = (d', (- side)%Z, None) -> unit d' -> snell_law n0 n1 d d' N ->
    exists res, single_interface_check fuel E r d side n = Some (Ok res) /\ r_nint res = S n /\ r_loc res = h_theta h /\
      passed side (y + s) n0 n1 d N res.
  Proof using All.
    intros Hd Hu Hm. pose proof PI_RGT_0. destruct exit_facts as (UN & VN & DN & TH & P0 & P1 & Hx & _).
    destruct HE as (f & Hg & Hp & Hn).
    destruct (facet E s eta f r d k h side theta) as (_ & _ & _ & _ & _ & HP); auto; try lra; try apply Hn.
    assert (Hl : leaves_within (- side) (y + s) d').
    { apply (refracted_below side d d' N x y s n0 n1); auto; try lra. apply Hh. }
    assert (Hs' : pm1 (- side)) by (destruct Hs as [-> | ->]; [right|left]; reflexivity).
    replace fuel with (k + S (2 + (fuel - k - 3)))%nat by lia.
    rewrite (hits E r d side n k h _ d' (- side)%Z None Hk Hd).
    rewrite (leaves_at_once E f s eta (vz d) (h_point h) d' (- side)%Z (h_theta h) (S n) 0 k 0 _ (y + s)); auto; try lra;
      try (intros; apply Hn).
    2:{ replace (y + s + s) with (y + 2 * s) by ring. auto. }
    eexists. split; [reflexivity|]. cbn [r_nint r_loc]. do 2 (split; auto). split; [|auto].
    cbn [r_out r_dir]. rewrite sgn_same; [rewrite polar_unit by auto; auto|].
    destruct Hh as [_ Hh1]. destruct Hl as [_ Hl1]. rewrite opp_IZR in Hl1.
    assert (0 < cos theta) by (apply cos_gt_0; lra). assert (0 < cos (y + s)) by (apply cos_gt_0; lra).
    destruct Hs as [-> | ->]; nra.
  Qed.

  Lemma exit_fresnel p : e_dec E = fresnel_decision ni nj p -> e_rnd E n < 1 -> fresnel_R n0 n1 x p < e_rnd E n ->
    exists res, single_interface_check fuel E r d side n = Some (Ok res) /\ r_nint res = S n /\ r_loc res = h_theta h /\
      passed side (y + s) n0 n1 d N res.
  Proof using All.
    intros Hd Hr HR. destruct exit_facts as (UN & VN & DN & TH & P0 & P1 & Hx & _).
    assert (Hu : unit d) by apply Hh.
    pose proof (decide_cases n0 n1 x d N side p (e_rnd E n) P0 P1 TH Hu UN DN Hr) as K.
    assert (ED : e_dec E side (h_theta h) d N (e_rnd E n) = decide_RT_Fresnel n0 n1 x d N side p (e_rnd E n)).
    { rewrite Hd. unfold fresnel_decision, n0, n1, x. destruct (Z.eqb side 1); apply decide_abs. }
    destruct (decide_RT_Fresnel n0 n1 x d N side p (e_rnd E n)) as [[d' s'] A]. destruct K as (-> & Hu' & K).
    destruct K as [(X & _)|(_ & -> & _ & Hm)]; [lra|]. apply (passes d'); auto.
  Qed.

  Lemma exit_table ent : e_dec E = table_decision ni nj ent ->
    let e := ent side x in te_R e < e_rnd E n <= te_R e + te_T e ->
    exists res, single_interface_check fuel E r d side n = Some (Ok res) /\ r_nint res = S n /\ r_loc res = h_theta h /\
      passed side (y + s) n0 n1 d N res.
  Proof using All.
    intros Hd e [HR HT]. destruct exit_facts as (UN & VN & DN & TH & P0 & P1 & _ & Hx).
    assert (Hu : unit d) by apply Hh.
    pose proof (interaction_TMM e n0 n1 x d N side (e_rnd E n) P0 P1 TH Hu UN DN Hx) as K.
    assert (ED : e_dec E side (h_theta h) d N (e_rnd E n) = decide_RT_TMM e n0 n1 d N side (e_rnd E n)).
    { rewrite Hd. unfold table_decision, n0, n1, e, x. destruct (Z.eqb side 1); auto. }
    unfold decide_RT_TMM in K, ED.
    rewrite (proj2 (Rleb_false (e_rnd E n) (te_R e))) in K, ED by lra. rewrite (proj2 (Rltb_true (te_R e) (e_rnd E n))) in K, ED by lra.
    rewrite (proj2 (Rleb_true (e_rnd E n) (te_R e + te_T e))) in K, ED by lra. cbn [andb] in K, ED.
    destruct K as (Hu' & [(_ & X & _)|[(_ & _ & Hm)|(X & _)]]); [destruct Hs as [-> | ->]; discriminate| |discriminate].
    apply (passes _ ED); auto.
  Qed.
End ExitThms.

(* both outcomes are possible below the critical angle *)
Lemma frac_below a b : 0 < a -> 0 < b -> Rabs ((a - b) / (a + b)) ^ 2 < 1.
Proof.
  intros Ha Hb. rewrite Rabs_sq.
  assert (-1 < (a - b) / (a + b) < 1).
  { split; apply Rmult_lt_reg_r with (a + b); try lra; unfold Rdiv; rewrite Rmult_assoc, Rinv_l by lra; lra. }
  nra.
Qed.

Lemma fresnel_below_one n0 n1 x p : 0 < n0 -> 0 < n1 -> 0 <= x < PI / 2 -> n0 * sin x < n1 -> 0 <= fresnel_R n0 n1 x p < 1.
Proof.
  intros H0 H1 Hx Hs. rewrite (proj2 (fresnel_R_cases n0 n1 x p H0 H1 Hx)) by lra.
  split; [apply calc_R_range; auto; lra|].
  assert (Hs' : n0 * sin x <= n1) by lra.
  destruct (theta_t_facts n0 n1 x H0 H1 Hx Hs') as (Ht & Hsn & Hct). pose proof (cos_pos x Hx) as Hc. unfold calc_R.
  set (t := asin (n0 / n1 * sin x)) in *.
  assert (C : 0 < cos t).
  { destruct (Rle_lt_or_eq_dec _ _ Hct) as [|E]; auto. exfalso. pose proof (sin2_cos2 t) as Q. rewrite <- E in Q. unfold Rsqr in Q.
    assert (sin t < 1) by nra. assert (0 <= sin t) by (apply sin_ge_0; pose proof PI_RGT_0; lra). nra. }
  pose proof (frac_below (n0 * cos x) (n1 * cos t)) as Bs. pose proof (frac_below (n0 * cos t) (n1 * cos x)) as Bp.
  assert (0 < n0 * cos x) by nra. assert (0 < n1 * cos t) by nra. assert (0 < n0 * cos t) by nra. assert (0 < n1 * cos x) by nra.
  specialize (Bs ltac:(lra) ltac:(lra)). specialize (Bp ltac:(lra) ltac:(lra)). destruct p; lra.
Qed.

(* ---------- nothing ahead of the ray ---------- *)

Lemma steps (g : R -> R) L : (forall x, g (x + L) = g x) -> forall i x, g (x + IZR i * L) = g x.
Proof.
  intros H. assert (N : forall n x, g (x + INR n * L) = g x).
  { induction n as [|n IH]; intros x; [cbn; now rewrite Rmult_0_l, Rplus_0_r|].
    rewrite S_INR. replace (x + (INR n + 1) * L) with (x + INR n * L + L) by ring. rewrite H. apply IH. }
  intros i x. destruct (Z_le_gt_dec 0 i) as [Hi|Hi].
  - rewrite <- (Z2Nat.id i Hi), <- INR_IZR_INZ. apply N.
  - rewrite <- (N (Z.to_nat (- i)) (x + IZR i * L)). rewrite INR_IZR_INZ, Z2Nat.id by lia. rewrite opp_IZR. f_equal. ring.
Qed.

Lemma whole_cells f Lx Ly i j x y : periodic f Lx Ly -> f (x + IZR i * Lx) (y + IZR j * Ly) = f x y.
Proof.
  intros [Px Py]. rewrite (steps (fun u => f (x + IZR i * Lx) u) Ly) by (intros; apply Py).
  apply (steps (fun u => f u y) Lx). intros; apply Px.
Qed.

Definition by_cells (Lx Ly : R) (p q : vec) : Prop := exists i j, q = vadd p (mkv (IZR i * Lx) (IZR j * Ly) 0).

Lemma by_cells_trans Lx Ly p q r : by_cells Lx Ly p q -> by_cells Lx Ly q r -> by_cells Lx Ly p r.
Proof.
  intros (i & j & ->) (i' & j' & ->). exists (i + i')%Z, (j + j')%Z. rewrite !plus_IZR.
  apply vec_ext; unfold vadd; cbn [vx vy vz]; ring.
Qed.

Lemma translation_cells Lx Ly p w : by_cells Lx Ly p (vadd p (translation Lx Ly w)).
Proof.
  destruct w as [|[|[|[|w]]]]; unfold translation; cbn [nth];
    [exists 0%Z, (-1)%Z|exists (-1)%Z, 0%Z|exists 0%Z, 1%Z|exists 1%Z, 0%Z|destruct w; exists 0%Z, 0%Z];
    apply vec_ext; unfold vadd; cbn [vx vy vz]; ring.
Qed.

Lemma wrap_cells Lx Ly p : by_cells Lx Ly p (wrap_cell Lx Ly p).
Proof.
  unfold wrap_cell, pymod, set_x, set_y.
  destruct (Rltb Lx (vx p) || Rltb (vx p) 0); cbn [vx vy vz]; destruct (Rltb Ly (vy p) || Rltb (vy p) 0); cbn [vx vy vz].
  - exists (- Zfloor (vx p / Lx))%Z, (- Zfloor (vy p / Ly))%Z. rewrite !opp_IZR. apply vec_ext; unfold vadd; cbn [vx vy vz]; ring.
  - exists (- Zfloor (vx p / Lx))%Z, 0%Z. rewrite !opp_IZR. apply vec_ext; unfold vadd; cbn [vx vy vz]; ring.
  - exists 0%Z, (- Zfloor (vy p / Ly))%Z. rewrite !opp_IZR. apply vec_ext; unfold vadd; cbn [vx vy vz]; ring.
  - exists 0%Z, 0%Z. apply vec_ext; unfold vadd; cbn [vx vy vz]; ring.
Qed.

Lemma nothing_ahead E f s eta p d' side' phi :
  gentle f (tan s) -> periodic f (e_Lx E) (e_Ly E) -> (forall k, near_graph f eta (s_tris (e_surf E k))) ->
  0 <= s -> 0 <= phi -> phi + s < PI / 2 -> 2 * eta * cos s < 1 / 10 ^ 9 * cos (phi + s) ->
  pm1 side' -> leaves_within side' phi d' -> Rabs (vz p - f (vx p) (vy p)) <= eta ->
  forall q k T t, by_cells (e_Lx E) (e_Ly E) (vadd p (vscale (1 / 10 ^ 9) d')) q -> In T (s_tris (e_surf E k)) -> ~ meets q d' T t.
Proof.
  intros Hg Hp Hn Hs0 Hphi Hsum Heta Hs Hl Hpt q k T t (i & j & Eq) HT. pose proof PI_RGT_0.
  assert (Cs : 0 < cos s) by (apply cos_gt_0; lra).
  assert (Cps : 0 < cos (phi + s)) by (apply cos_gt_0; lra).
  assert (HL : 0 <= tan s). { unfold tan. apply Rmult_le_pos; [apply sin_ge_0; lra|]. apply Rlt_le, Rinv_0_lt_compat; auto. }
  pose proof (climbs side' d' phi s Hs Hl Hphi Hs0 Hsum) as Hc.
  set (kap := IZR side' * vz d' - tan s * level d') in *.
  assert (Kp : 0 < kap). { apply (Rlt_le_trans _ (cos (phi + s) / cos s)); auto. apply Rdiv_lt_0_compat; auto. }
  assert (K2 : 2 * eta < 1 / 10 ^ 9 * kap).
  { apply (Rlt_le_trans _ (1 / 10 ^ 9 * (cos (phi + s) / cos s))); [|apply Rmult_le_compat_l; lra].
    apply (Rmult_lt_reg_r (cos s)); auto.
    replace (1 / 10 ^ 9 * (cos (phi + s) / cos s) * cos s) with (1 / 10 ^ 9 * cos (phi + s)) by (field; lra). auto. }
  assert (Oq : off_by f eta side' (vadd p (vscale (1 / 10 ^ 9) d'))).
  { apply (rises f (tan s) side' HL Hg Hs); [lra|]. apply Rabs_le_inv in Hpt. fold kap. destruct Hs as [-> | ->]; lra. }
  assert (Oq' : off_by f eta side' q).
  { rewrite Eq. unfold off_by in *. cbn [vadd vx vy vz] in *. rewrite Rplus_0_r, whole_cells by auto. exact Oq. }
  assert (M : check_intersect q d' (s_tris (e_surf E k)) = None) by (apply (misses f (tan s) eta side' HL Hg Hs); auto; fold kap; lra).
  rewrite check_intersect_none in M. auto.
Qed.

Lemma leaves_free E s eta r d side n k h fuel d' side' phi : shallow E s eta -> first_met E r d k h -> unit d -> (k + 3 <= fuel)%nat ->
  e_dec E side (h_theta h) d (vscale (IZR side) (h_N h)) (e_rnd E n) = (d', side', None) ->
  0 <= s -> 0 <= phi -> phi + s < PI / 2 -> 2 * eta * cos s < 1 / 10 ^ 9 * cos (phi + s) -> pm1 side' -> leaves_within side' phi d' ->
  exists res, single_interface_check fuel E r d side n = Some (Ok res) /\ free_path E res.
Proof.
  intros (f & Hg & Hp & Hn) Hk Hu Hf Hd H0 H1 H2 H3 Hs Hl. pose proof Hk as (_ & Hc & _).
  destruct (start_pos E r d k) as [p|] eqn:Ep; [|discriminate]. cbn [check_pos] in Hc.
  destruct (sound_nearest _ _ _ _ Hu Hc) as (T0 & t0 & HT0 & (_ & Hon & _) & _ & Hpt & _).
  assert (HP : Rabs (vz (h_point h) - f (vx (h_point h)) (vy (h_point h))) <= eta) by (rewrite Hpt; apply (proj1 (Hn 0%nat) T0); auto).
  replace fuel with (k + S (2 + (fuel - k - 3)))%nat by lia.
  rewrite (hits E r d side n k h _ d' side' None Hk Hd).
  rewrite (leaves_at_once E f s eta (vz d) (h_point h) d' side' (h_theta h) (S n) 0 k 0 _ phi); auto; try (intros; apply Hn).
  eexists. split; [reflexivity|]. intros q i j kk T t Hq HT. cbn [r_pos r_dir option_map] in *. injection Hq as <-.
  apply (nothing_ahead E f s eta (h_point h) d' side' phi) with (k := kk); auto; try (intros; apply Hn).
  eapply by_cells_trans; [apply translation_cells|]. eapply by_cells_trans; [apply wrap_cells|]. exists i, j. reflexivity.
Qed.

Section FreeThms.
  Variables (E : env) (s eta theta : R) (side : Z) (d : vec) (r : option vec) (n k : nat) (h : hit) (fuel : nat) (ni nj : R).
  Hypothesis Hs : pm1 side.
  Hypothesis Hh : heads side theta d.
  Hypothesis Ht : 0 <= theta.
  Hypothesis H0 : 0 <= s.
  Hypothesis Hsum : theta + 3 * s < PI / 2.
  Hypothesis Heta : 2 * eta * cos s < 1 / 10 ^ 9 * cos (theta + 3 * s).
  Hypothesis HE : shallow E s eta.
  Hypothesis Hi : 0 < ni.
  Hypothesis Hj : 0 < nj.
  Hypothesis Hk : first_met E r d k h.
  Hypothesis Hfuel : (k + 3 <= fuel)%nat.
  Let x := Rabs (h_theta h).
  Let n0 := if Z.eqb side 1 then ni else nj.
  Let n1 := if Z.eqb side 1 then nj else ni.

  Lemma free_fresnel p res : e_dec E = fresnel_decision ni nj p -> e_rnd E n < 1 -> e_rnd E n <= fresnel_R n0 n1 x p \/ n0 <= n1 ->
    single_interface_check fuel E r d side n = Some (Ok res) -> free_path E res.
  Proof using All.
    intros Hd Hr Hc Hres. pose proof PI_RGT_0.
    destruct (once_facet E s eta theta side d r n k h fuel ni nj Hs Hh Ht H0 Hsum Heta HE Hi Hj Hk Hfuel) as (UN & VN & DN & TH & TL).
    fold x in DN, TH, TL. set (N := vscale (IZR side) (h_N h)) in *.
    assert (P0 : 0 < n0) by (unfold n0; destruct (Z.eqb side 1); auto).
    assert (P1 : 0 < n1) by (unfold n1; destruct (Z.eqb side 1); auto).
    assert (Hu : unit d) by apply Hh.
    pose proof (decide_cases n0 n1 x d N side p (e_rnd E n) P0 P1 TH Hu UN DN Hr) as K.
    assert (ED : e_dec E side (h_theta h) d N (e_rnd E n) = decide_RT_Fresnel n0 n1 x d N side p (e_rnd E n)).
    { rewrite Hd. unfold fresnel_decision, n0, n1, x. destruct (Z.eqb side 1); apply decide_abs. }
    destruct (decide_RT_Fresnel n0 n1 x d N side p (e_rnd E n)) as [[d' s'] A]. destruct K as (-> & Hu' & K).
    assert (Cx : 0 < cos x) by (apply cos_gt_0; lra).
    assert (L : pm1 s' /\ leaves_within s' (theta + 2 * s) d').
    { destruct K as [(_ & -> & Hm)|(X & -> & _ & Hm)].
      - split; [auto|]. apply (mirrored_within side d d' N theta s Hs Hh UN VN Hu' Hm); lra.
      - destruct Hc as [Hc|Hc]; [lra|]. split; [destruct Hs as [-> | ->]; [right|left]; reflexivity|].
        apply (refracted_within side d d' N theta s n0 n1 Hs Hh UN VN Hu' Hm); lra. }
    destruct L as [L1 L2].
    destruct (leaves_free E s eta r d side n k h fuel d' s' (theta + 2 * s) HE Hk Hu Hfuel ED) as (res' & R1 & R2); auto; try lra.
    { replace (theta + 2 * s + s) with (theta + 3 * s) by ring. auto. }
    rewrite R1 in Hres. injection Hres as <-. exact R2.
  Qed.
End FreeThms.
