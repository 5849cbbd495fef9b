(* Rays and single cells without periodic boundaries (C197). *)
From Coq Require Import Reals List Bool ZArith Lia Lra.
From Verif Require Import Base Lib Model_Angles Model_Optics Model_OpticsC Model_RayIface Model_RayStack Model_Surface Model_RTStruct Model_Trace Model_StackRay
  Spec_Optics Spec_OpticsC Spec_RayIface Spec_RayStack Spec_Surface Spec_RTStruct Spec_Trace Spec_StackRay Spec_Cell
  Proof_Optics Proof_Geom Proof_OpticsProps Proof_OpticsC2 Proof_OpticsC3 Proof_Surface Proof_RayStack Proof_RTStruct2 Proof_Trace Proof_StackRay Proof_StackFlat.
Import ListNotations.
Open Scope R_scope.

(* ---------- beside the cell ---------- *)

Lemma spread a x0 x1 x2 u v : 0 <= x0 <= a -> 0 <= x1 <= a -> 0 <= x2 <= a -> - tol <= u -> - tol <= v -> u + v <= 1 ->
  - (2 * tol) * a <= x0 + (u * (x1 - x0) + v * (x2 - x0)) <= (1 + 2 * tol) * a.
Proof.
  intros H0 H1 H2 Hu Hv Huv.
  assert (A0 : 0 <= (1 - u - v) * x0) by (apply Rmult_le_pos; lra).
  assert (A1 : 0 <= (u + tol) * x1) by (apply Rmult_le_pos; lra).
  assert (A2 : 0 <= (v + tol) * x2) by (apply Rmult_le_pos; lra).
  assert (B0 : 0 <= (1 - u - v) * (a - x0)) by (apply Rmult_le_pos; lra).
  assert (B1 : 0 <= (u + tol) * (a - x1)) by (apply Rmult_le_pos; lra).
  assert (B2 : 0 <= (v + tol) * (a - x2)) by (apply Rmult_le_pos; lra).
  assert (P : 0 < tol) by (unfold tol; lra).
  assert (C1 : tol * x1 <= tol * a) by (apply Rmult_le_compat_l; lra).
  assert (C2 : tol * x2 <= tol * a) by (apply Rmult_le_compat_l; lra).
  assert (D1 : 0 <= tol * x1) by (apply Rmult_le_pos; lra).
  assert (D2 : 0 <= tol * x2) by (apply Rmult_le_pos; lra).
  split; lra.
Qed.

Lemma margin a : 0 <= a -> 2 * tol * a <= 1 / 10 ^ 9 * a.
Proof. intros H. apply Rmult_le_compat_r; [lra|]. unfold tol. lra. Qed.

Lemma not_outside a x x0 x1 x2 u v : 0 <= x0 <= a -> 0 <= x1 <= a -> 0 <= x2 <= a -> - tol <= u -> - tol <= v -> u + v <= 1 ->
  x = x0 + (u * (x1 - x0) + v * (x2 - x0)) -> ~ off_cell a x.
Proof.
  intros H0 H1 H2 Hu Hv Huv E. pose proof (spread a x0 x1 x2 u v H0 H1 H2 Hu Hv Huv) as [L U]. rewrite <- E in L, U.
  pose proof (margin a ltac:(lra)). unfold off_cell. lra.
Qed.

Lemma beside_misses a b lo hi r d S : fits a b lo hi S -> beside a b lo hi r d -> check_pos (Some r) d S = None.
Proof.
  intros HF HB. cbn [check_pos]. apply check_intersect_none. intros T t HT (Ht & (u & v & Hu & Hv & Huv & E) & _).
  destruct (HF T HT) as ((X0 & Y0 & Z0) & (X1 & Y1 & Z1) & (X2 & Y2 & Z2)).
  assert (EX : vx r + t * vx d = vx (t_P0 T) + (u * (vx (t_P1 T) - vx (t_P0 T)) + v * (vx (t_P2 T) - vx (t_P0 T)))) by exact (f_equal vx E).
  assert (EY : vy r + t * vy d = vy (t_P0 T) + (u * (vy (t_P1 T) - vy (t_P0 T)) + v * (vy (t_P2 T) - vy (t_P0 T)))) by exact (f_equal vy E).
  assert (EZ : vz r + t * vz d = vz (t_P0 T) + (u * (vz (t_P1 T) - vz (t_P0 T)) + v * (vz (t_P2 T) - vz (t_P0 T)))) by exact (f_equal vz E).
  destruct (HB t Ht) as [P|P].
  - pose proof (spread (hi - lo) (vz (t_P0 T) - lo) (vz (t_P1 T) - lo) (vz (t_P2 T) - lo) u v ltac:(lra) ltac:(lra) ltac:(lra) Hu Hv Huv) as [L U].
    pose proof (margin (hi - lo) ltac:(lra)). lra.
  - exact (not_outside _ _ _ _ _ u v X0 X1 X2 Hu Hv Huv EX P).
  - exact (not_outside _ _ _ _ _ u v Y0 Y1 Y2 Hu Hv Huv EY P).
Qed.

Lemma cell_beside E a b lo hi r d side n fuel : fits a b lo hi (e_surf E 0) -> beside a b lo hi r d ->
  single_cell_check (S fuel) E (Some r) d side n =
  Some {| r_out := OTransmitted (polar d); Model_RayIface.r_pos := Some r; r_dir := d; r_loc := 0; r_nint := n; r_side := side |}.
Proof.
  intros HF HB. unfold single_cell_check. cbn [cell_run]. rewrite (beside_misses a b lo hi) by auto. rewrite Z.eqb_refl. reflexivity.
Qed.

(* ---------- the same in a stack ---------- *)

Lemma py_index_In {A} (l : list A) i x : py_index l i = Ok x -> In x l.
Proof.
  unfold py_index. cbv zeta. destruct (_ <? 0)%Z; [discriminate|]. destruct (nth_error l _) eqn:E; [|discriminate].
  intros H. injection H as <-. eapply nth_error_In; eauto.
Qed.

Lemma sstep_onward K st th o : sstep K st (OTransmitted th) = Ok o ->
  match o with inl s => s_dir s = s_dir st /\ s_surf s = (s_surf st + s_dir st)%Z /\ s_mat s = (s_mat st + s_dir st)%Z /\ s_theta s = Some th
             | inr s => s_dir s = s_dir st /\ s_mat s = (s_mat st + s_dir st)%Z /\ (s_theta s = None \/ s_theta s = Some th) end.
Proof.
  unfold sstep. destruct (py_pos (k_surfaces K) _) as [q1|]; [|discriminate]. destruct (py_pos _ (s_mat st)) as [q2|]; [|discriminate].
  destruct (py_pos _ (if Z.eqb (s_dir st) 1 then _ else _)) as [q3|]; [|discriminate]. cbn [rbind].
  destruct (_ || _).
  - intros H. injection H as <-. cbn [s_dir s_mat s_theta]. auto.
  - destruct (py_pos (length (k_widths K)) _) as [m|]; [|discriminate]. destruct (py_index (k_alphas K) _) as [al|]; [|discriminate]. cbn [rbind].
    unfold traverse. cbv zeta. cbn [tr_stop tr_theta]. destruct (Rltb _ (k_thresh K)); intros H; injection H as <-; cbn [s_dir s_mat s_surf s_theta]; auto.
Qed.

Lemma step_beside U fuel st p o : u_periodic U = false -> u_randomize U = false ->
  x_pos st = Some p -> clear_of U p (x_dir st) ->
  fstep (S fuel) U st = Some (Ok o) ->
  let st' := match o with inl s => s | inr s => s end in
  x_pos st' = Some p /\ x_dir st' = x_dir st /\ x_nint st' = x_nint st /\ s_dir (x_st st') = s_dir (x_st st) /\ s_mat (x_st st') = (s_mat (x_st st) + s_dir (x_st st))%Z /\ (s_theta (x_st st') = None \/ s_theta (x_st st') = Some (polar (x_dir st))).
Proof.
  intros HP HR Hp HB. unfold fstep. cbv zeta.
  destruct (py_index (u_faces U) _) as [f|] eqn:Ef; [|discriminate].
  unfold face_ray. rewrite HP, HR. cbn [andb]. rewrite Hp.
  destruct (rbind _ _) as [[ni nj]|]; [|discriminate].
  destruct (HB f (x_checks st) (py_index_In _ _ _ Ef)) as (a & b & lo & hi & F1 & F2).
  rewrite (cell_beside _ a b lo hi) by auto.
  cbn [option_map r_out Model_RayIface.r_pos r_dir r_nint r_loc].
  destruct (sstep _ _ _) as [[s|s]|] eqn:Es; try discriminate; intros H; injection H as <-; cbn [x_pos x_dir x_nint x_st];
    apply sstep_onward in Es; intuition.
Qed.

Lemma run_beside U fuel : u_periodic U = false -> u_randomize U = false -> forall outer st p fin,
  x_pos st = Some p -> clear_of U p (x_dir st) ->
  frun outer (S fuel) U st = Some (Ok fin) ->
  x_dir fin = x_dir st /\ x_nint fin = x_nint st /\ s_dir (x_st fin) = s_dir (x_st st) /\ (s_theta (x_st fin) = None \/ s_theta (x_st fin) = Some (polar (x_dir st))).
Proof.
  intros HP HR. induction outer as [|outer IH]; intros st p fin Hp HB H; [discriminate|].
  cbn [frun] in H. destruct (fstep (S fuel) U st) as [[[s|s]|]|] eqn:E; try discriminate.
  - destruct (step_beside U fuel st p _ HP HR Hp HB E) as (A1 & A2 & A3 & A4 & _). cbv zeta in *.
    destruct (IH s p fin A1 ltac:(rewrite A2; exact HB) H) as (B1 & B2 & B3 & B4).
    rewrite A2 in B1, B4. rewrite A3 in B2. rewrite A4 in B3. auto.
  - injection H as <-. destruct (step_beside U fuel st p _ HP HR Hp HB E) as (A1 & A2 & A3 & A4 & _ & A5). auto.
Qed.

(* it does get out, or runs out of power *)
Lemma sstep_out K n m st th : k_surfaces K = n -> length (k_widths K) = S n -> length (k_alphas K) = S n -> heads_for n m st ->
  exists o, sstep K st (OTransmitted th) = Ok o /\
  match o with
  | inl s => s_dir s = s_dir st /\ exists m', m = S m' /\ heads_for n m' s
  | inr s => s_dir s = s_dir st /\ (s_theta s = None \/ s_theta s = Some th /\ s_mat s = if Z.eqb (s_dir st) 1 then Z.of_nat n else 0%Z)
  end.
Proof.
  intros K1 K2 K3 [Hm Hs]. unfold sstep. rewrite K1, K2, K3.
  rewrite (py_pos_ok n (s_surf st)) by (destruct Hs as [(D & S0 & Hs)|(D & S0 & Hs)]; lia). cbn [rbind].
  rewrite (py_pos_ok (S n) (s_mat st)) by (destruct Hs as [(D & S0 & Hs)|(D & S0 & Hs)]; lia). cbn [rbind].
  rewrite (py_pos_ok (S n) (if Z.eqb (s_dir st) 1 then s_mat st + 1 else s_mat st - 1)%Z) by (destruct Hs as [(D & S0 & Hs)|(D & S0 & Hs)]; rewrite D; cbn [Z.eqb Pos.eqb]; lia). cbn [rbind].
  replace (Z.of_nat (S n) - 1)%Z with (Z.of_nat n) by lia.
  destruct (_ || _)%bool eqn:EN.
  - eexists. split; [reflexivity|]. cbn [s_dir s_theta s_mat]. split; auto. right. split; auto.
    apply orb_true_iff in EN. destruct EN as [EN|EN]; apply andb_true_iff in EN; destruct EN as [X1 X2]; apply Z.eqb_eq in X1, X2; rewrite X1 in *; exact X2.
  - apply orb_false_iff in EN. destruct EN as [E1 E2].
    assert (M : (0 < s_mat st + s_dir st < Z.of_nat n)%Z /\ (1 < m)%nat).
    { destruct Hs as [(D & ? & Hs)|(D & ? & Hs)]; rewrite D in *; cbn [Z.eqb Pos.eqb andb] in E1, E2.
      - apply Z.eqb_neq in E1. lia.
      - apply Z.eqb_neq in E2. lia. }
    destruct M as [M1 M2].
    rewrite (py_pos_ok (S n)) by lia. rewrite (py_index_ok _ _ 0) by lia. cbn [rbind]. cbv zeta.
    assert (H' : forall s, s_dir s = s_dir st -> s_mat s = (s_mat st + s_dir st)%Z -> s_surf s = (s_surf st + s_dir st)%Z -> heads_for n (m - 1) s).
    { intros s X1 X2 X3. split; [lia|]. rewrite X1, X2, X3. destruct Hs as [(D & S & Hs)|(D & S & Hs)]; rewrite D; [left|right]; lia. }
    unfold traverse at 1. cbv zeta. cbn [tr_stop]. destruct (Rltb _ (k_thresh K)) eqn:L.
    + eexists. split; [reflexivity|]. cbn [s_dir s_theta]. split; auto. left. unfold traverse. cbv zeta. cbn [tr_theta]. rewrite L. reflexivity.
    + eexists. split; [reflexivity|]. cbn [s_dir]. split; auto. exists (m - 1)%nat. split; [lia|]. apply H'; reflexivity.
Qed.

Lemma run_ends U fuel n : u_periodic U = false -> u_randomize U = false -> layered U n -> forall m extra st p,
  x_pos st = Some p -> clear_of U p (x_dir st) -> heads_for n m (x_st st) ->
  exists fin, frun (m + extra) (S fuel) U st = Some (Ok fin) /\ x_dir fin = x_dir st /\ x_nint fin = x_nint st /\ s_dir (x_st fin) = s_dir (x_st st) /\
    (s_theta (x_st fin) = None \/
     s_theta (x_st fin) = Some (polar (x_dir st)) /\ s_mat (x_st fin) = if Z.eqb (s_dir (x_st st)) 1 then Z.of_nat n else 0%Z).
Proof.
  intros HP HR (L1 & L2 & L3 & L4 & L5). induction m as [|m IH]; intros extra st p Hp HB HH; [destruct HH; lia|].
  cbn [Nat.add frun].
  destruct (sstep_out (u_K U) n (S m) (x_st st) (polar (x_dir st)) L3 L4 L5 HH) as (o & EO & HO).
  assert (HF : forall f0 : facing, exists f, py_index (u_faces U) (s_surf (x_st st)) = Ok f /\ In f (u_faces U)).
  { intros f0. destruct HH as [Hm HH]. eexists. split; [apply (py_index_ok _ _ f0)|apply nth_In]; destruct HH as [(_ & S & HH)|(_ & S & HH)]; lia. }
  destruct (u_faces U) as [|f0 fs] eqn:EF; [cbn in L1; destruct HH; lia|]. destruct (HF f0) as (f & F1 & F2). rewrite <- EF in *. clear HF.
  unfold fstep. cbv zeta. rewrite F1. unfold face_ray. rewrite HP, HR. cbn [andb]. rewrite Hp.
  assert (NK : forall i, (0 <= i < Z.of_nat (S n))%Z -> exists c, py_index (u_nks U) i = Ok c).
  { intros i Hi. exists (nth (Z.to_nat i) (u_nks U) (creal 1)). apply py_index_ok. lia. }
  destruct (NK (if Z.eqb (s_dir (x_st st)) 1 then s_mat (x_st st) else s_mat (x_st st) - 1)%Z) as [ni Ni].
  { destruct HH as [Hm [(-> & ? & HH)|(-> & ? & HH)]]; cbn [Z.eqb Pos.eqb]; lia. }
  destruct (NK (if Z.eqb (s_dir (x_st st)) 1 then s_mat (x_st st) + 1 else s_mat (x_st st))%Z) as [nj Nj].
  { destruct HH as [Hm [(-> & ? & HH)|(-> & ? & HH)]]; cbn [Z.eqb Pos.eqb]; lia. }
  rewrite Ni. cbn [rbind]. rewrite Nj. cbn [rbind].
  destruct (HB f (x_checks st) F2) as (a & b & lo & hi & B1 & B2).
  rewrite (cell_beside _ a b lo hi) by auto.
  cbn [option_map r_out Model_RayIface.r_pos r_dir r_nint r_loc]. rewrite EO.
  destruct o as [s|s]; [|eexists; split; [reflexivity|]; cbn [x_dir x_nint x_st]; destruct HO as [-> HO]; auto].
  destruct HO as [D (m' & Em & H')]. injection Em as <-.
  match goal with |- context [frun _ _ _ ?x] => destruct (IH extra x p) as (fin & G1 & G2 & G3 & G4 & G5) end; cbn [x_pos x_dir x_st]; auto.
  cbn [x_dir x_nint x_st] in *. rewrite D in *. eauto 8.
Qed.

(* ---------- meeting a flat cell ---------- *)

Section Met.
  Variables (z0 a b : R) (E : env) (dir : Z) (psi f : R) (n : nat).
  Hypothesis Hflat : forall T, In T (s_tris (e_surf E 0)) -> at_z z0 T.
  Hypothesis Hcov : forall x y, 0 <= x < a -> 0 <= y < b -> exists T u v, In T (s_tris (e_surf E 0)) /\
    0 <= u /\ 0 <= v /\ u + v <= 1 /\ x = vx (t_P0 T) + u * (vx (t_P1 T) - vx (t_P0 T)) + v * (vx (t_P2 T) - vx (t_P0 T)) /\
    y = vy (t_P0 T) + u * (vy (t_P1 T) - vy (t_P0 T)) + v * (vy (t_P2 T) - vy (t_P0 T)).
  Hypothesis Hdir : pm1 dir.
  Hypothesis Ht : 0 <= psi < PI / 2.

  Let d := travel dir psi f.

  Let E' : env := {| e_surf := fun _ => {| s_tris := s_tris (e_surf E 0); s_zmin := z0; s_zmax := z0 |}; e_rnd := e_rnd E; e_xy := e_xy E;
                     e_Lx := e_Lx E; e_Ly := e_Ly E; e_dec := e_dec E |}.

  Lemma cell_hit r : 0 < (vz r - z0) * IZR dir -> crosses_cell 0 0 a b z0 r d -> exists h,
    check_pos (Some r) d (e_surf E 0) = Some h /\ vz (h_point h) = z0 /\ h_theta h = IZR dir * psi /\ h_N h = mkv 0 0 1.
  Proof.
    intros Hr Hc.
    assert (HE : forall k : nat, (forall T, In T (s_tris (e_surf E' k)) -> at_z z0 T) /\ s_zmin (e_surf E' k) = z0 /\ s_zmax (e_surf E' k) = z0)
      by (intros k; cbn [E' e_surf s_tris s_zmin s_zmax]; auto).
    exact (dir_hit z0 a b E' dir psi f HE Hcov Hdir Ht r Hr Hc).
  Qed.

  Lemma cell_check r fuel : 0 < (vz r - z0) * IZR dir -> crosses_cell 0 0 a b z0 r d ->
    let '(d', s', A) := e_dec E dir (IZR dir * psi) d (facing_normal dir) (e_rnd E n) in
    match A with
    | Some A => exists p, single_cell_check (2 + fuel) E (Some r) d dir n =
        Some {| r_out := OAbsorbed A; Model_RayIface.r_pos := p; r_dir := d'; r_loc := IZR dir * psi; r_nint := S n; r_side := s' |}
    | None => (s' = 1%Z /\ 0 < vz d') \/ (s' = (-1)%Z /\ vz d' < 0) ->
        exists p, vz p = z0 + 1 / 10 ^ 9 * vz d' /\ (exists h, check_pos (Some r) d (e_surf E 0) = Some h /\ p = vadd (h_point h) (vscale (1 / 10 ^ 9) d')) /\
          single_cell_check (2 + fuel) E (Some r) d dir n =
          Some {| r_out := if Z.eqb s' dir then OReflected (polar d') else OTransmitted (polar d');
                  Model_RayIface.r_pos := Some p; r_dir := d';
                  r_loc := IZR dir * psi; r_nint := S n; r_side := s' |}
    end.
  Proof.
    intros Hr Hc. destruct (cell_hit r Hr Hc) as (hh & K1 & K2 & K3 & K4).
    destruct (e_dec E dir (IZR dir * psi) d (facing_normal dir) (e_rnd E n)) as [[d' s'] A] eqn:D.
    unfold facing_normal in D. rewrite <- K4 in D.
    assert (C : 0 < cos psi) by (apply cos_gt_0; lra).
    unfold single_cell_check. change (2 + fuel)%nat with (S (S fuel)).
    destruct A as [A|].
    - eexists. cbn [cell_run]. rewrite K1, K3, D. reflexivity.
    - intros Hs. cbn [cell_run]. rewrite K1, K3, D.
      set (r1 := vadd (h_point hh) (vscale (1 / 10 ^ 9) d')).
      assert (Z1 : vz r1 = z0 + 1 / 10 ^ 9 * vz d') by (unfold r1, vadd, vscale; cbn [vz]; rewrite K2; ring).
      exists r1. split; [exact Z1|]. split; [exists hh; auto|].
      cbn [check_pos]. rewrite (no_return z0) by auto. f_equal. f_equal.
      replace (Z.eqb (sgn (vz d)) (sgn (vz d'))) with (negb (Z.eqb s' dir)).
      + destruct (Z.eqb s' dir); reflexivity.
      + unfold sgn, d, travel. cbn [vz].
        destruct Hdir as [-> | ->]; destruct Hs as [[-> P]|[-> P]]; cbn [Z.eqb Pos.eqb negb];
        repeat match goal with |- context [Rltb ?u ?v] => let L := fresh "L" in destruct (Rltb u v) eqn:L; [apply Rltb_true in L|apply Rltb_false in L]; try lra end;
        reflexivity.
  Qed.

  (* with the usual films *)
  Lemma cell_film c ni nj here there r fuel : 0 < (vz r - z0) * IZR dir -> crosses_cell 0 0 a b z0 r d ->
    e_dec E = film_dec c ni nj ->
    (dir = 1%Z -> ni = here /\ nj = there) -> (dir = (-1)%Z -> ni = there /\ nj = here) ->
    optical_medium here -> optical_medium there -> e_rnd E n < 1 ->
    (forall ent, c = Coated ent -> re there <= re here * sin psi -> te_T (ent dir psi) <= 0) ->
    (forall ent, c = Coated ent -> in_phase here there \/ psi = 0) ->
    (forall p, c = Bare p -> re there = re here * sin psi -> 1 <= fresnel_Rc here there psi p) ->
    exists res, single_cell_check (2 + fuel) E (Some r) d dir n = Some res /\ r_nint res = S n /\
    match meets_film c dir here there psi (e_rnd E n) with
    | Back => r_out res = OReflected (polar_of (- dir) psi) /\ r_dir res = travel (- dir) psi f
    | Onward => exists psi', 0 <= psi' < PI / 2 /\ re here * sin psi = re there * sin psi' /\
        r_out res = OTransmitted (polar_of dir psi') /\ r_dir res = travel dir psi' f
    | Stays A => r_out res = OAbsorbed A
    end.
  Proof.
    intros Hr Hc HD H1 H2 Mh Mt Hu HT HF HC.
    pose proof (cell_check r fuel Hr Hc) as K. rewrite HD in K.
    pose proof (film_decides c dir ni nj here there psi f (e_rnd E n) (re here * sin psi) Hdir H1 H2 Mh Mt Ht eq_refl Hu HT HF HC) as F.
    assert (C : 0 < cos psi) by (apply cos_gt_0; lra).
    assert (S0 : 0 <= sin psi) by (apply sin_nonneg; lra). pose proof (proj1 Mh) as Ph. pose proof PI_RGT_0 as PP.
    assert (PT : forall g t, pm1 g -> 0 <= t < PI / 2 -> polar (travel g t f) = polar_of g t).
    { intros g t Hg Hgt. rewrite travel_pointing by auto. apply polar_pointing. unfold polar_of. destruct (Z.eqb g 1); lra. }
    assert (OD : pm1 (- dir)) by (destruct Hdir as [-> | ->]; [right|left]; reflexivity).
    fold d in F. destruct (meets_film c dir here there psi (e_rnd E n)) as [| |A].
    - rewrite F in K. destruct K as (p & _ & _ & K).
      { rewrite travel_z. destruct Hdir as [-> | ->]; cbn [Z.opp]; [left|right]; split; auto; lra. }
      eexists. split; [exact K|]. cbn [r_nint r_out r_dir]. rewrite Z.eqb_refl, PT by auto. auto.
    - destruct F as [Lt F]. rewrite F in K. destruct (asin_snell (re here * sin psi) (re there)) as [B1 B2].
      { split; [apply Rmult_le_pos; lra|auto]. }
      assert (C' : 0 < cos (asin (re here * sin psi / re there))) by (apply cos_gt_0; lra).
      destruct K as (p & _ & _ & K).
      { rewrite travel_z. destruct Hdir as [-> | ->]; cbn [Z.opp]; [right|left]; split; auto; lra. }
      eexists. split; [exact K|]. cbn [r_nint r_out r_dir]. split; auto.
      exists (asin (re here * sin psi / re there)). split; auto. split; [lra|].
      replace (Z.eqb (- dir) dir) with false by (destruct Hdir as [-> | ->]; reflexivity). rewrite PT by auto. auto.
    - rewrite F in K. destruct K as (p & K). eexists. split; [exact K|]. auto.
  Qed.
End Met.

(* ---------- a pane of glass that is thicker than its cell is wide ---------- *)

Definition square (z : R) : surface :=
  {| s_tris := [{| t_P0 := mkv 0 0 z; t_P1 := mkv 1 0 z; t_P2 := mkv 1 1 z |}; {| t_P0 := mkv 0 0 z; t_P1 := mkv 1 1 z; t_P2 := mkv 0 1 z |}];
     s_zmin := z; s_zmax := z |}.
Definition pane_face (z : R) : facing :=
  {| f_surf := fun _ _ => square z; f_Lx := 1; f_Ly := 1; f_zcov := z; f_dec := film_dec (Bare PolU) |}.
(* media of index 2, 2, 1; the layer is 10 um thick, the cell 1 um wide; every random number 1/2 *)
Definition pane : setup :=
  {| u_K := {| k_widths := padded [10]; k_alphas := [0; 0; 0]; k_surfaces := 2; k_zpos := []; k_thresh := 1 / 100 |};
     u_faces := [pane_face 0; pane_face (-10)]; u_nks := [creal 2; creal 2; creal 1];
     u_draws := {| dr_rnd := fun _ => 1 / 2; dr_xy := fun _ _ => (0, 0); dr_uv := fun _ => (0, 0) |};
     u_randomize := false; u_periodic := false |}.

Lemma square_level z T : In T (s_tris (square z)) -> at_z z T.
Proof.
  intros H. cbn [square s_tris In] in H. destruct H as [<-|[<-|[]]]; unfold at_z, plan_area; cbn [t_P0 t_P1 t_P2 vx vy vz]; repeat split; lra.
Qed.

Lemma square_covers z x y : 0 <= x <= 1 -> 0 <= y <= 1 -> exists T u v, In T (s_tris (square z)) /\
  0 <= u /\ 0 <= v /\ u + v <= 1 /\ x = vx (t_P0 T) + u * (vx (t_P1 T) - vx (t_P0 T)) + v * (vx (t_P2 T) - vx (t_P0 T)) /\
  y = vy (t_P0 T) + u * (vy (t_P1 T) - vy (t_P0 T)) + v * (vy (t_P2 T) - vy (t_P0 T)).
Proof.
  intros Hx Hy. destruct (Rle_lt_dec y x) as [L|L].
  - eexists _, (x - y), y. split; [left; reflexivity|]. cbn [t_P0 t_P1 t_P2 vx vy]. repeat split; lra.
  - eexists _, x, (y - x). split; [right; left; reflexivity|]. cbn [t_P0 t_P1 t_P2 vx vy]. repeat split; lra.
Qed.

Lemma square_fits z : fits 1 1 z z (square z).
Proof.
  intros T H. cbn [square s_tris In] in H. destruct H as [<-|[<-|[]]]; unfold in_box; cbn [t_P0 t_P1 t_P2 vx vy vz]; repeat split; lra.
Qed.

Lemma pane_level z : level_face z (pane_face z).
Proof.
  unfold level_face, pane_face. cbn [f_Lx f_Ly f_zcov f_surf]. split; [lra|]. split; [lra|]. split; [reflexivity|]. intros _ _.
  split; [reflexivity|]. split; [reflexivity|]. split; [exact (square_level z)|]. intros x y. apply square_covers.
Qed.

Lemma pane_stack : stack_of (u_K pane) [10].
Proof.
  constructor; auto.
  - intros w [<-|[]]. lra.
  - intros a H. cbn in H. lra.
  - cbn. lra.
Qed.

Lemma no_step : fresnel_Rc (creal 2) (creal 2) (PI / 4) PolU = 0.
Proof.
  pose proof PI_RGT_0 as PP. rewrite fresnel_Rc_real by lra. unfold fresnel_R, clip.
  replace (2 / 2) with 1 by field. destruct (Rltb 1 (-1)) eqn:L1; [apply Rltb_true in L1; lra|]. destruct (Rltb 1 1) eqn:L2; [apply Rltb_true in L2; lra|].
  rewrite asin_1, (Rabs_pos_eq (PI / 4)) by lra. destruct (Rltb (PI / 2) (PI / 4)) eqn:L3; [apply Rltb_true in L3; lra|].
  unfold calc_R. replace (2 / 2) with 1 by field. rewrite Rmult_1_l, asin_sin by lra. cbv zeta.
  replace ((2 * cos (PI / 4) - 2 * cos (PI / 4)) / (2 * cos (PI / 4) + 2 * cos (PI / 4))) with 0 by (unfold Rdiv; ring).
  rewrite Rabs_R0. lra.
Qed.

Lemma start_exact h theta phi x y widths : 0 <= theta < PI / 2 -> 0 <= h ->
  stack_start widths (start_vector h theta phi) x y 0 1 = Ok (mkv x y (h + 1 / 10 ^ 8), travel 1 theta (phi + PI), 0%Z).
Proof.
  intros Ht Hh. assert (Hh' : h <> - (1 / 10 ^ 8)) by lra.
  destruct (stack_first h theta phi x y Ht Hh' widths) as (z & d & E & _ & D). rewrite E. f_equal. f_equal. f_equal.
  - assert (C : 0 < cos theta) by (apply cos_gt_0; lra).
    assert (V : vz (start_vector h theta phi) = h + 1 / 10 ^ 8).
    { unfold start_vector. cbn [vz]. rewrite Rabs_pos_eq; [field; lra|]. apply Rmult_le_pos; [lra|]. left. now apply Rinv_0_lt_compat. }
    pose proof (stack_pos h theta phi x y Ht Hh' (h + 1 / 10 ^ 8)) as P.
    unfold stack_start in E. cbn [Z.eqb Pos.eqb Z.ltb Z.compare andb rbind] in E. rewrite V in E.
    destruct (first_ray (start_vector h theta phi) x y) as [p d']. cbn [snd fst] in E. rewrite P in E. injection E as E _. rewrite <- E. reflexivity.
  - rewrite neg_phi. unfold heads_down in D. rewrite D. f_equal. ring.
Qed.

Lemma pane_trace : exists fin, trace_stack 2 2 pane (start_vector 0 (PI / 4) PI) (1 / 2) (1 / 2) 0 1 = Some (Ok fin) /\
  s_theta (x_st fin) = Some (PI - PI / 4) /\ s_mat (x_st fin) = 2%Z /\ s_dir (x_st fin) = 1%Z /\ s_I (x_st fin) = 1 /\ x_nint fin = 1%nat.
Proof.
  pose proof PI_RGT_0 as PP. assert (F1 : cos (PI + PI) = 1) by (rewrite neg_cos, cos_PI; ring).
  assert (F2 : sin (PI + PI) = 0) by (rewrite neg_sin, sin_PI; ring).
  assert (CS : sin (PI / 4) = cos (PI / 4)) by apply sin_cos_PI4.
  assert (C : 0 < cos (PI / 4)) by (apply cos_gt_0; lra).
  pose proof (COS_bound (PI / 4)) as [_ C1].
  unfold trace_stack, fstart. rewrite (start_exact 0 (PI / 4) PI (1 / 2) (1 / 2)) by lra. cbn [rbind fst snd].
  set (d := travel 1 (PI / 4) (PI + PI)). set (p := mkv (1 / 2) (1 / 2) (0 + 1 / 10 ^ 8)).
  assert (Dx : vx d = cos (PI / 4)) by (unfold d, travel; cbn [vx]; rewrite F1, CS; ring).
  assert (Dy : vy d = 0) by (unfold d, travel; cbn [vy]; rewrite F2; ring).
  assert (Dz : vz d = - cos (PI / 4)) by (unfold d, travel; cbn [vz]; ring).
  assert (PO : polar d = PI - PI / 4).
  { unfold d. rewrite travel_pointing by (left; reflexivity). apply polar_pointing. unfold polar_of. cbn [Z.eqb Pos.eqb]. lra. }
  (* the front *)
  set (E0 := face_env pane (pane_face 0) 0 (creal 2) (creal 2)).
  assert (HD : film_dec (Bare PolU) (creal 2) (creal 2) 1%Z (IZR 1 * (PI / 4)) d (facing_normal 1) (1 / 2) = (d, (-1)%Z, None)).
  { pose proof (film_decides (Bare PolU) 1%Z (creal 2) (creal 2) (creal 2) (creal 2) (PI / 4) (PI + PI) (1 / 2) (2 * sin (PI / 4))) as Q.
    cbn [meets_film] in Q. rewrite no_step in Q. destruct (Rleb (1 / 2) 0) eqn:L; [apply Rleb_true in L; lra|].
    destruct Q as [_ Q]; try (intros; discriminate); try lra.
    - left; reflexivity.
    - auto.
    - split; cbn [re im creal]; lra.
    - split; cbn [re im creal]; lra.
    - reflexivity.
    - intros q _ Eq. exfalso. cbn [re creal] in Eq. assert (sin (PI / 4) = 1) by lra. pose proof (cos_sin_sq (PI / 4)). nra.
    - fold d in Q. rewrite Q. f_equal. f_equal. unfold d. f_equal. cbn [re creal]. replace (2 * sin (PI / 4) / 2) with (sin (PI / 4)) by field. apply asin_sin. lra. }
  assert (K0 : exists q, vz q = 0 + 1 / 10 ^ 9 * vz d /\ 1 / 2 <= vx q /\ single_cell_check 2 E0 (Some p) d 1 0 =
    Some {| r_out := OTransmitted (polar d); Model_RayIface.r_pos := Some q; r_dir := d; r_loc := IZR 1 * (PI / 4); r_nint := 1; r_side := (-1)%Z |}).
  { pose proof (cell_check 0 1 1 E0 1%Z (PI / 4) (PI + PI) 0%nat (square_level 0)) as Q.
    specialize (Q (fun x y Hx Hy => square_covers 0 x y ltac:(lra) ltac:(lra)) ltac:(left; reflexivity) ltac:(lra) p 0%nat).
    fold d in Q. change (e_dec E0) with (film_dec (Bare PolU) (creal 2) (creal 2)) in Q. change (e_rnd E0 0) with (1 / 2) in Q. rewrite HD in Q.
    destruct Q as (q & Q1 & (h & Q2 & Q3) & Q4).
    - unfold p. cbn [vz]. lra.
    - exists (1 / 10 ^ 8 / cos (PI / 4)). unfold p. cbn [vx vy vz]. rewrite Dx, Dy, Dz.
      replace (1 / 10 ^ 8 / cos (PI / 4) * cos (PI / 4)) with (1 / 10 ^ 8) by (field; lra).
      split; [field; lra|]. split; lra.
    - right. split; auto. lra.
    - exists q. split; auto. split; [|exact Q4]. rewrite Q3.
      cbn [check_pos] in Q2. destruct (check_intersect_some _ _ _ _ Q2) as (T & t & _ & (Ht & _) & Hp & _). rewrite Hp.
      unfold vadd, vscale. cbn [vx]. rewrite Dx. unfold p. cbn [vx]. nra. }
  destruct K0 as (q & Zq & Xq & K0).
  (* the rear *)
  set (E1 := face_env pane (pane_face (-10)) 1 (creal 2) (creal 1)).
  assert (K1 : single_cell_check 2 E1 (Some q) d 1 1 =
    Some {| r_out := OTransmitted (polar d); Model_RayIface.r_pos := Some q; r_dir := d; r_loc := 0; r_nint := 1; r_side := 1%Z |}).
  { apply (cell_beside E1 1 1 (-10) (-10) q d 1%Z 1%nat 1%nat (square_fits (-10))). intros t Ht Hz. left. left.
    rewrite Dx. rewrite Zq, Dz in Hz. nra. }
  assert (S0 : exists s1, sstep (u_K pane) (sstart (u_K pane) 0 1) (OTransmitted (polar d)) = Ok (inl s1) /\ s_I s1 = 1 /\
    s_dir s1 = 1%Z /\ s_mat s1 = 1%Z /\ s_surf s1 = 1%Z).
  { unfold sstep, sstart, pane, padded. cbn [u_K k_widths k_alphas k_surfaces k_zpos k_thresh s_surf s_mat s_dir length app].
    unfold py_pos, py_index. cbn [Z.eqb Pos.eqb Z.of_nat Pos.of_succ_nat Pos.succ Z.ltb Z.compare Pos.compare Pos.compare_cont Z.add Z.sub Z.opp Z.pos_sub Pos.add rbind
      negb orb andb s_I Z.to_nat Pos.to_nat Pos.iter_op Nat.add nth nth_error].
    change (2 <=? 0)%Z with false. change (3 <=? 0)%Z with false. change (3 <=? 1)%Z with false. change (Pos.to_nat 1) with 1%nat. cbn [rbind nth_error].
    unfold traverse. cbn [tr_I tr_stop tr_theta].
    assert (X : 1 * exp (- (0 / Rabs (cos (polar d))) * 10) = 1).
    { replace (- (0 / Rabs (cos (polar d))) * 10) with 0 by (unfold Rdiv; ring). rewrite exp_0. ring. }
    rewrite X. destruct (Rltb 1 (1 / 100)) eqn:L; [apply Rltb_true in L; lra|]. eexists. split; [reflexivity|]. cbn [s_I s_dir s_mat s_surf]. auto. }
  destruct S0 as (s1 & S0 & I1 & D1 & M1 & U1).
  assert (S1 : exists s2, sstep (u_K pane) s1 (OTransmitted (polar d)) = Ok (inr s2) /\ s_I s2 = 1 /\ s_theta s2 = Some (polar d) /\
    s_dir s2 = 1%Z /\ s_mat s2 = 2%Z).
  { unfold sstep, pane, padded. rewrite U1, M1, D1, I1. cbn [u_K k_widths k_alphas k_surfaces k_zpos k_thresh length app].
    unfold py_pos, py_index. cbn [Z.eqb Pos.eqb Z.of_nat Pos.of_succ_nat Pos.succ Z.ltb Z.compare Pos.compare Pos.compare_cont Z.add Z.sub Z.opp Z.pos_sub Pos.add rbind
      negb orb andb Z.to_nat Pos.to_nat Pos.iter_op Nat.add].
    change (2 <=? 1)%Z with false. change (3 <=? 1)%Z with false. change (3 <=? 2)%Z with false. cbn [rbind].
    eexists. split; [reflexivity|]. cbn [s_I s_dir s_mat s_theta]. auto. }
  destruct S1 as (s2 & S1 & I2 & T2 & D2 & M2).
  cbn [frun].
  match goal with |- context [fstep 2 pane ?s] => set (st0 := s) end.
  assert (W0 : fstep 2 pane st0 = Some (Ok (inl {| x_st := s1; x_pos := Some q; x_dir := d; x_nint := 1; x_checks := 1;
     x_phi := atan2 (vy d) (vx d); x_loc := IZR 1 * (PI / 4) |}))).
  { unfold fstep. change (s_surf (x_st st0)) with 0%Z. change (py_index (u_faces pane) 0) with (@Ok facing (pane_face 0)). cbv iota.
    change (face_ray pane (pane_face 0) (x_checks st0) (s_passes (x_st st0)) (s_dir (x_st st0)) (x_pos st0) (x_dir st0)) with (Some p, d).
    cbv beta iota zeta.
    change (rbind (py_index (u_nks pane) _) _) with (@Ok (cplx * cplx) (creal 2, creal 2)). cbv iota.
    change (u_periodic pane) with false. cbv iota. change (face_env pane (pane_face 0) (x_checks st0) (creal 2) (creal 2)) with E0.
    change (s_dir (x_st st0)) with 1%Z. change (x_nint st0) with 0%nat. rewrite K0. cbn [option_map r_out r_dir r_nint r_loc Model_RayIface.r_pos].
    change (x_st st0) with (sstart (u_K pane) 0 1). rewrite S0. reflexivity. }
  rewrite W0.
  match goal with |- context [fstep 2 pane ?s] => set (st1 := s) end.
  assert (W1 : fstep 2 pane st1 = Some (Ok (inr {| x_st := s2; x_pos := Some q; x_dir := d; x_nint := 1; x_checks := 2;
     x_phi := atan2 (vy d) (vx d); x_loc := 0 |}))).
  { unfold fstep. change (x_st st1) with s1. rewrite U1, M1, D1. change (py_index (u_faces pane) 1) with (@Ok facing (pane_face (-10))). cbv iota.
    change (face_ray pane (pane_face (-10)) (x_checks st1) (s_passes s1) 1 (x_pos st1) (x_dir st1)) with (Some q, d).
    cbv beta iota zeta.
    change (rbind (py_index (u_nks pane) _) _) with (@Ok (cplx * cplx) (creal 2, creal 1)). cbv iota.
    change (u_periodic pane) with false. cbv iota. change (face_env pane (pane_face (-10)) (x_checks st1) (creal 2) (creal 1)) with E1.
    change (x_nint st1) with 1%nat. rewrite K1. cbn [option_map r_out r_dir r_nint r_loc Model_RayIface.r_pos].
    rewrite S1. reflexivity. }
  rewrite W1. eexists. split; [reflexivity|]. cbn [x_st x_nint]. rewrite T2, PO. auto.
Qed.
