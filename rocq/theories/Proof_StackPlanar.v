(* How rays end in planar stacks, and stacks built from flat surfaces. *)
From Coq Require Import Reals List Bool ZArith Lia Lra.
From Verif Require Import Base Lib Model_Angles Model_Optics Model_OpticsC Model_RayIface Model_RayStack Model_Surface Model_RTStruct Model_Trace Model_StackRay
  Spec_Optics Spec_RayIface Spec_RayStack Spec_Surface Spec_RTStruct Spec_Trace Spec_StackRay
  Proof_Optics Proof_Geom Proof_Surface Proof_RayStack Proof_RTStruct3 Proof_Trace Proof_Trace2 Proof_StackRay Proof_StackFlat.
Import ListNotations.
Open Scope R_scope.

(* ---------- how a planar ray ends ---------- *)

Lemma sstep_passes K st o q : sstep K st o = Ok q ->
  match q with
  | inl s' => s_passes s' = S (s_passes st) /\ forall A, o <> OAbsorbed A
  | inr s' => s_passes s' = s_passes st \/ (s_passes s' = S (s_passes st) /\ forall A, o <> OAbsorbed A)
  end.
Proof.
  intros H. unfold sstep in H.
  repeat (match type of H with rbind ?x _ = _ => destruct x; cbn [rbind] in H; [|discriminate] end).
  assert (G : forall c (X : sstate) (w : res nat) (al : res R) (F G : nat -> R -> sstate) (tst : nat -> R -> bool) (o : outcome),
    (if (c : bool) then Ok (inr X) else rbind w (fun m => rbind al (fun a => if tst m a then Ok (inr (F m a)) else Ok (inl (F m a))))) = Ok q ->
    s_passes X = s_passes st -> (forall m a, s_passes (F m a) = S (s_passes st)) -> (forall A, o <> OAbsorbed A) ->
    match q with
    | inl s' => s_passes s' = S (s_passes st) /\ forall A, o <> OAbsorbed A
    | inr s' => s_passes s' = s_passes st \/ (s_passes s' = S (s_passes st) /\ forall A, o <> OAbsorbed A) end).
  { intros c X w al F _ tst o' E HX HF HA. destruct c; [injection E as <-; auto|].
    destruct w as [m|]; [|discriminate]. cbn [rbind] in E. destruct al as [a|]; [|discriminate]. cbn [rbind] in E.
    destruct (tst m a); injection E as <-; auto. }
  destruct o as [th|th|A].
  - eapply (G _ _ _ _ _ (fun _ _ => st)); [exact H| | |]; intros; try discriminate; reflexivity.
  - eapply (G _ _ _ _ _ (fun _ _ => st)); [exact H| | |]; intros; try discriminate; reflexivity.
  - injection H as <-. now left.
Qed.

Lemma srun_passed n K outs : forall st k fin, srun n K st outs k = Some (Ok fin) -> s_passes st = k ->
  forall j, (k <= j < s_passes fin)%nat -> forall A, outs j <> OAbsorbed A.
Proof.
  induction n as [|n IH]; intros st k fin H Hk j Hj; [discriminate|]. cbn [srun] in H.
  destruct (sstep K st (outs k)) as [[s'|s']|e] eqn:Es; try discriminate; pose proof (sstep_passes K st (outs k) _ Es) as P; cbv beta iota in P.
  - destruct P as [P1 P2]. destruct (Nat.eq_dec j k) as [->|N]; auto. apply (IH s' (S k) fin H); lia.
  - injection H as <-. destruct P as [P|[P1 P2]]; [lia|]. replace j with k by lia. auto.
Qed.

Section End.
  Variables (K : stack) (ws : list R) (ns : list cplx) (films : list film) (m0 d0 : Z) (theta : R) (u : nat -> R).
  Hypothesis HK : stack_of K ws.
  Hypothesis HS : good_start ws m0 d0.

  Let at_ := planar_at ns films m0 d0 theta u.
  Let out := planar_out ns films m0 d0 theta u.
  Let psi := snell ns m0 theta.

  Lemma planar_at_path k : at_ k = (medium m0 d0 out k, heading d0 out k).
  Proof.
    induction k as [|k IH]; [reflexivity|]. cbn [medium heading]. unfold at_ in *. cbn [planar_at]. rewrite IH.
    set (md := medium m0 d0 out k) in *. set (hd := heading d0 out k) in *.
    assert (O : out k = match next_fate ns films m0 theta u md hd k with Back => OReflected (polar_of (- hd) (psi md))
      | Onward => OTransmitted (polar_of hd (psi (md + hd))) | Stays A => OAbsorbed A end).
    { unfold out, planar_out. rewrite IH. reflexivity. }
    rewrite O. destruct (next_fate ns films m0 theta u md hd k); reflexivity.
  Qed.

  Lemma planar_out_path k : out k = match next_fate ns films m0 theta u (medium m0 d0 out k) (heading d0 out k) k with
      Back => OReflected (polar_of (- heading d0 out k) (psi (medium m0 d0 out k)))
      | Onward => OTransmitted (polar_of (heading d0 out k) (psi (medium m0 d0 out k + heading d0 out k))) | Stays A => OAbsorbed A end.
  Proof. unfold out at 1, planar_out. fold at_. rewrite planar_at_path. reflexivity. Qed.

  Lemma planar_angle k : (forall A, out k <> OAbsorbed A) -> angle out k = polar_of (heading d0 out (S k)) (psi (medium m0 d0 out (S k))).
  Proof.
    intros N. unfold angle. cbn [medium heading]. rewrite planar_out_path in *.
    destruct (next_fate ns films m0 theta u (medium m0 d0 out k) (heading d0 out k) k) as [| |A]; auto. exfalso. now apply (N A).
  Qed.

  Lemma cos_polar d p : - (PI / 2) <= p <= PI / 2 -> Rabs (cos (polar_of d p)) = cos p.
  Proof.
    intros H. assert (0 <= cos p) by (apply cos_ge_0; lra). unfold polar_of.
    destruct (Z.eqb d 1); rewrite ?Rtrigo_facts.cos_pi_minus, ?Rabs_Ropp; apply Rabs_right; lra.
  Qed.

  Lemma planar_crossing k : (forall A, out k <> OAbsorbed A) -> crossing m0 d0 out K k = planar_loss ns films m0 d0 theta u K k.
  Proof.
    intros N. unfold crossing, planar_loss. rewrite (planar_angle k N), cos_polar by (apply asin_bound).
    change (planar_at ns films m0 d0 theta u (S k)) with (at_ (S k)). rewrite planar_at_path. reflexivity.
  Qed.

  Lemma planar_powers p : (forall j, (j < p)%nat -> forall A, out j <> OAbsorbed A) -> forall k, (k <= p)%nat ->
    power m0 d0 out K k = planar_power ns films m0 d0 theta u K k.
  Proof.
    intros N k Hk. unfold power, planar_power. do 3 f_equal. apply map_ext_in. intros j Hj. apply in_seq in Hj. apply planar_crossing. apply N. lia.
  Qed.

  Lemma planar_ending fuel o : single_ray_stack fuel K m0 d0 out = Some o -> exists st k, o = Ok st /\
    planar_end ns films m0 d0 theta u K (length ws) k st /\
    (forall j, (1 <= j <= k)%nat -> (1 <= fst (at_ j) <= Z.of_nat (length ws))%Z /\ k_thresh K <= planar_power ns films m0 d0 theta u K j) /\
    length (s_A st) = S (S (length ws)) /\
    (forall i, (i < S (S (length ws)))%nat -> nth i (s_A st) 0 = planar_lost_in ns films m0 d0 theta u K i (s_passes st)).
  Proof.
    intros H. destruct (path_end_alive K ws m0 d0 out HK HS fuel o H) as (k & st & -> & _ & En & In1 & LA & EA).
    assert (N : forall j, (j < s_passes st)%nat -> forall A, out j <> OAbsorbed A).
    { intros j Hj. apply (srun_passed fuel K out (sstart K m0 d0) 0 st H eq_refl j). lia. }
    pose proof (planar_powers (s_passes st) N) as PW.
    assert (WL : length (k_widths K) = S (S (length ws))) by (rewrite (so_widths _ _ HK); apply padded_length).
    exists st, k. split; auto. split; [|split; [|split; [lia|]]].
    - inversion En as [E1 E2 E3 E4 E5 E6 E7|E1 E2 E3 E4 E5 E6 E7|A E1 E2 E3 E4 E5 E6 E7|E1 E2 E3 E4 E5 E6 E7].
      + apply planar_front; auto.
        * fold at_. rewrite planar_at_path, E2, E3. reflexivity.
        * rewrite E4, (planar_angle k E1), E2, E3. reflexivity.
        * rewrite E5. apply PW. lia.
      + apply planar_rear; auto.
        * fold at_. rewrite planar_at_path, E2, E3. reflexivity.
        * rewrite E4, (planar_angle k E1), E2, E3. reflexivity.
        * rewrite E5. apply PW. lia.
      + apply (planar_film _ _ _ _ _ _ _ _ _ _ (medium m0 d0 out k) (heading d0 out k) A); auto.
        * fold at_. apply planar_at_path.
        * rewrite planar_out_path in E1. destruct (next_fate _ _ _ _ _ _ _ _); try discriminate. congruence.
        * rewrite E5. rewrite PW by lia. reflexivity.
      + apply planar_bulk; auto.
        * fold at_. rewrite planar_at_path. exact E2.
        * rewrite E4. apply PW. lia.
    - intros j Hj. rewrite planar_at_path. cbn [fst]. destruct (In1 j Hj) as [I1 I2]. split; [exact I1|]. rewrite <- PW; [exact I2|].
      inversion En; lia.
    - intros i Hi. rewrite EA by lia. unfold lost_in, planar_lost_in. f_equal. apply map_ext_in. intros j Hj. apply in_seq in Hj.
      fold at_. rewrite planar_at_path. cbn [fst]. rewrite !PW by lia. reflexivity.
  Qed.
End End.

(* ---------- all there is to know about a planar ray ---------- *)

Lemma planar_traced U ws films m0 d0 theta phi h x y outer fuel fin : planar_structure U ws films m0 theta -> 0 <= theta < PI / 2 -> 0 <= h -> 0 < vz (start_vector h theta phi) ->
  (d0 = 1 /\ 0 <= m0 <= Z.of_nat (length ws))%Z \/ (d0 = -1 /\ 1 <= m0 <= Z.of_nat (length ws))%Z ->
  trace_stack outer (3 + fuel) U (start_vector h theta phi) x y m0 d0 = Some (Ok fin) -> traced (u_K U) ws (x_st fin).
Proof.
  intros HP Ht Hh Hv HG H. destruct (planar_start U ws films m0 d0 theta phi h x y HP Ht Hh HG) as (st & E & Ex & R).
  assert (Hm0 : (0 <= m0 <= Z.of_nat (length ws) + 1)%Z) by (destruct HG as [[_ G]|[_ G]]; lia).
  assert (GS : good_start ws m0 d0) by (destruct HG as [[-> G]|[-> G]]; [left|right]; split; auto; lia).
  destruct (fstart_good U ws (start_vector h theta phi) x y m0 d0 (pl_struct _ _ _ _ _ HP) GS Hv) as (st' & E' & G & Ex' & Ec).
  rewrite E in E'. injection E' as <-. unfold trace_stack in H. rewrite E in H.
  assert (NL : never_level (3 + fuel) U st) by (intros z Hz; apply (planar_never_level fuel U ws films m0 d0 theta (phi + PI) HP Hm0 Ht st z Hz 0 R)).
  destruct (frun_good (3 + fuel) U ws (pl_struct _ _ _ _ _ HP) outer st _ G NL H) as (fin' & outs & n & Ef & PP & SR & _).
  injection Ef as <-. exists m0, d0, outs, n. split; auto. rewrite Ex' in PP, SR. split; auto.
Qed.

(* ---------- flat surfaces moved to their place ---------- *)

Lemma refreshed_flat s hs k : su_dist s = None -> refreshed s hs k = s.
Proof.
  intros D. unfold refreshed. induction k as [|k IH]; [reflexivity|].
  rewrite seq_S, fold_left_app, IH. cbn [fold_left]. unfold refresh. now rewrite D.
Qed.

Lemma level_lowered z0 a b dz s s' seen hs dec : flat_surface z0 a b s -> 0 < a -> 0 < b -> lowered dz s s' ->
  level_face (z0 - dz) (facing_of s' seen hs dec).
Proof.
  intros Hs Ha Hb (L1 & L2 & L3 & L4 & L5 & L6 & L7 & L8 & L9 & _ & _ & _ & _ & L14).
  destruct (flat_facts z0 a b s Hs Ha Hb) as (F1 & F2 & F3 & F4 & F5 & F6 & F7 & F8 & F9).
  assert (Hp : exists v, In v (su_pts s)).
  { destruct Hs as (del & p & E & (G1 & _) & _). unfold mk_surface in E. destruct (argmax _); [|discriminate]. cbn [rbind] in E.
    destruct (find_zcov p); [|discriminate]. cbn [rbind] in E. injection E as <-. cbn [su_pts].
    destruct p as [|v p]; [destruct G1 as [[] _]|]. exists v. now left. }
  assert (Hz : forall v, In v (su_pts s) -> vz v = z0).
  { intros v Hv. destruct Hs as (del & p & E & _ & Z & _). unfold mk_surface in E. destruct (argmax _); [|discriminate]. cbn [rbind] in E.
    destruct (find_zcov p); [|discriminate]. cbn [rbind] in E. injection E as <-. cbn [su_pts] in Hv. auto. }
  assert (Hz' : forall v, In v (su_pts s') -> vz v = z0 - dz).
  { intros v Hv. rewrite L1 in Hv. apply in_map_iff in Hv. destruct Hv as (w & <- & Hw). cbn [vz]. rewrite (Hz w Hw). reflexivity. }
  assert (Hn : su_pts s' <> []). { destruct Hp as [v Hv]. rewrite L1. destruct (su_pts s); [destruct Hv|discriminate]. }
  destruct (L7 Hn) as (p & q & P1 & P2 & P3 & P4).
  assert (TR : su_tris s = map (tri_of (su_pts s)) (su_simp s) /\ forall i j k, In (i, j, k) (su_simp s) ->
    (i < length (su_pts s) /\ j < length (su_pts s) /\ k < length (su_pts s))%nat).
  { destruct Hs as (del & pp & E & _ & _ & W & _). unfold mk_surface in E. destruct (argmax _); [|discriminate]. cbn [rbind] in E.
    destruct (find_zcov pp); [|discriminate]. cbn [rbind] in E. injection E as <-. cbn [su_pts su_tris su_simp] in *. split; [reflexivity|].
    intros i j k Hi. rewrite Forall_forall in W. destruct (W _ Hi) as (I & J & Kk & _). auto. }
  destruct TR as [TR BD].
  assert (NV : forall i, (i < length (su_pts s))%nat -> nth i (su_pts s') v0 = mkv (vx (nth i (su_pts s) v0)) (vy (nth i (su_pts s) v0)) (z0 - dz)).
  { intros i Hi. rewrite L1. rewrite (nth_indep _ v0 ((fun v => mkv (vx v) (vy v) (vz v - dz)) v0)) by (rewrite map_length; auto).
    rewrite (map_nth (fun v => mkv (vx v) (vy v) (vz v - dz))). rewrite (Hz (nth i (su_pts s) v0)) by (apply nth_In; auto). reflexivity. }
  split; [cbn [facing_of f_Lx]; lra|]. split; [cbn [facing_of f_Ly]; lra|]. split; [cbn [facing_of f_zcov]; lra|].
  intros k j. cbn [facing_of f_surf f_Lx f_Ly]. rewrite refreshed_flat by congruence. cbn [as_surface s_zmin s_zmax s_tris].
  split; [rewrite <- P3; auto|]. split; [rewrite <- P4; auto|]. split.
  - intros T HT. rewrite L5 in HT. apply in_map_iff in HT. destruct HT as (t & <- & Ht). destruct t as [[i1 i2] i3].
    destruct (BD _ _ _ Ht) as (B1 & B2 & B3).
    assert (IT : In (tri_of (su_pts s) (i1, i2, i3)) (su_tris s)) by (rewrite TR; now apply in_map).
    destruct (F1 _ IT) as (_ & _ & _ & P). unfold plan_area, tri_of in *. cbn [t_P0 t_P1 t_P2 fst snd] in *.
    rewrite !NV by auto. cbn [vx vy vz]. auto.
  - intros x y Hx Hy. rewrite L8, F6 in Hx. rewrite L9, F7 in Hy. destruct (F9 x y Hx Hy) as (T & uu & vv & HT & U1 & V1 & UV & X & Y).
    rewrite TR in HT. apply in_map_iff in HT. destruct HT as (t & <- & Ht). destruct t as [[i1 i2] i3]. destruct (BD _ _ _ Ht) as (B1 & B2 & B3).
    exists (tri_of (su_pts s') (i1, i2, i3)), uu, vv. split; [rewrite L5; now apply in_map|].
    unfold tri_of in *. cbn [t_P0 t_P1 t_P2 fst snd] in *. rewrite !NV by auto. cbn [vx vy vz]. auto.
Qed.

Lemma depth_scale c ws k : depth (map (fun w => c * w) ws) k = c * depth ws k.
Proof. unfold depth. rewrite firstn_map. induction (firstn k ws) as [|w l IH]; cbn [map rsum]; [ring|]. rewrite IH. ring. Qed.

Lemma built_level M S textures (materials : list M) widths inc trn : length textures = Datatypes.S (length widths) ->
  (forall o, In o textures -> exists s a b, surface_at S o = Some s /\ 0 < a /\ 0 < b /\ flat_surface 0 a b s) ->
  exists S' surfaces cw, new_rt_structure S textures materials widths inc trn = Ok (S', surfaces, inc :: materials ++ [trn], cw) /\
    length surfaces = length textures /\
    forall i, (i <= length widths)%nat -> exists q s', nth_error surfaces i = Some q /\ surface_at S' q = Some s' /\
      forall seen hs dec, level_face (- depth (map (fun w => 10 ^ 6 * w) widths) i) (facing_of s' seen hs dec).
Proof.
  intros HL HT. destruct (structure_ok S textures materials widths inc trn) as (S' & su & cw & E & L & _ & B).
  - intros o Ho. destruct (HT o Ho) as (s & _ & _ & Hs & _). eauto.
  - lia.
  - exists S', su, cw. split; auto. split; auto. intros i Hi.
    destruct (nth_error textures i) as [o|] eqn:Eo; [|apply nth_error_None in Eo; lia].
    destruct (B i o Eo) as (q & s & s' & H1 & H2 & H3 & H4). exists q, s'. split; auto. split; auto. intros seen hs dec.
    destruct (HT o (nth_error_In _ _ Eo)) as (s2 & a & b & Es & Ha & Hb & F). rewrite H2 in Es. injection Es as <-.
    rewrite depth_scale. replace (- (10 ^ 6 * depth widths i)) with (0 - 10 ^ 6 * depth widths i) by ring.
    apply (level_lowered 0 a b _ s); auto.
Qed.
