(* A ray followed through a stack takes a proper path. *)
From Coq Require Import Reals List Bool ZArith Lia Lra.
From Verif Require Proof_RayProfile.
From Verif Require Import Base Lib Model_Angles Model_Optics Model_OpticsC Model_RayIface Model_RayStack Model_Surface Model_RTStruct Model_Trace Model_StackRay
  Spec_Optics Spec_OpticsC Spec_RayIface Spec_RayStack Spec_StackRay Proof_Optics Proof_RayIface Proof_RayIface2 Proof_RayStack Proof_RTStruct2.
Import ListNotations.
Open Scope R_scope.

(* ---------- paths that are put together from the front ---------- *)

Definition ocons (o : outcome) (outs : nat -> outcome) (k : nat) : outcome := match k with O => o | S j => outs j end.

Definition turn (d : Z) (o : outcome) : Z := match o with OReflected _ => (- d)%Z | _ => d end.

Lemma heading_cons d0 o outs k : heading d0 (ocons o outs) (S k) = heading (turn d0 o) outs k.
Proof.
  induction k as [|k IH].
  - cbn. unfold turn. destruct o; reflexivity.
  - change (heading d0 (ocons o outs) (S (S k))) with
      (match ocons o outs (S k) with OReflected _ => (- heading d0 (ocons o outs) (S k))%Z | _ => heading d0 (ocons o outs) (S k) end).
    rewrite IH. reflexivity.
Qed.

Lemma proper_cons d0 o outs : proper d0 o -> proper_path (turn d0 o) outs -> proper_path d0 (ocons o outs).
Proof. intros H1 H2 [|k]; [exact H1|]. rewrite heading_cons. cbn [ocons]. apply H2. Qed.

Lemma srun_shift fuel K : forall st outs k, srun fuel K st outs (S k) = srun fuel K st (fun i => outs (S i)) k.
Proof.
  induction fuel as [|fuel IH]; intros; [reflexivity|]. cbn [srun]. destruct (sstep K st (outs (S k))) as [[st'|st']|e]; auto.
Qed.

Lemma srun_ext fuel K : forall st o1 o2 k, (forall i, o1 i = o2 i) -> srun fuel K st o1 k = srun fuel K st o2 k.
Proof.
  induction fuel as [|fuel IH]; intros st o1 o2 k H; [reflexivity|]. cbn [srun]. rewrite H. destruct (sstep K st (o2 k)) as [[st'|st']|e]; auto.
Qed.

Lemma srun_cons fuel K st o outs : srun (S fuel) K st (ocons o outs) 0 =
  match sstep K st o with Err e => Some (Err e) | Ok (inr st') => Some (Ok st') | Ok (inl st') => srun fuel K st' outs 0 end.
Proof.
  cbn [srun ocons]. destruct (sstep K st o) as [[st'|st']|e]; auto. rewrite srun_shift. apply srun_ext. reflexivity.
Qed.

(* ---------- the bookkeeping never fails ---------- *)

Definition placed (n : nat) (st : sstate) : Prop :=
  pm1 (s_dir st) /\ s_surf st = (if Z.eqb (s_dir st) 1 then s_mat st else s_mat st - 1)%Z /\ (0 <= s_surf st <= Z.of_nat n)%Z.

Lemma py_pos_in n i : (0 <= i < Z.of_nat n)%Z -> py_pos n i = Ok (Z.to_nat i).
Proof.
  intros H. unfold py_pos. destruct (Z.ltb_spec i 0); [lia|]. destruct (Z.ltb_spec i 0); [lia|].
  destruct (Z.leb_spec (Z.of_nat n) i); [lia|]. reflexivity.
Qed.

Lemma py_index_in {A} (l : list A) i : (0 <= i < Z.of_nat (length l))%Z -> exists x, py_index l i = Ok x /\ nth_error l (Z.to_nat i) = Some x.
Proof.
  intros H. unfold py_index. destruct (Z.ltb_spec i 0); [lia|]. destruct (Z.ltb_spec i 0); [lia|].
  destruct (nth_error l (Z.to_nat i)) as [x|] eqn:E; [eauto|]. apply nth_error_None in E. lia.
Qed.

Definition moved_to (st : sstate) (o : outcome) (st' : sstate) : Prop :=
  s_dir st' = turn (s_dir st) o /\
  s_mat st' = match o with OTransmitted _ => (s_mat st + s_dir st)%Z | _ => s_mat st end /\
  (forall th, s_theta st' = Some th -> o = OReflected th \/ o = OTransmitted th).

Lemma sstep_placed K ws st o : stack_of K ws -> placed (length ws) st -> exists r, sstep K st o = Ok r /\
  match r with
  | inl st' => moved_to st o st' /\ placed (length ws) st' /\ s_passes st' = S (s_passes st)
  | inr st' => moved_to st o st'
  end.
Proof.
  intros HK (P1 & P2 & P3).
  assert (WL : length (k_widths K) = S (S (length ws))) by (rewrite (so_widths _ _ HK); apply padded_length).
  assert (AL : length (k_alphas K) = S (S (length ws))) by (rewrite (so_alphas _ _ HK); exact WL).
  unfold sstep. rewrite py_pos_ok by (rewrite (so_surf _ _ HK); lia). cbn [rbind].
  rewrite py_pos_ok by (rewrite AL; destruct P1 as [E|E]; rewrite E in P2; cbn [Z.eqb Pos.eqb] in P2; lia). cbn [rbind].
  rewrite py_pos_ok by (rewrite AL; destruct P1 as [E|E]; rewrite E in *; cbn [Z.eqb Pos.eqb] in *; lia). cbn [rbind].
  assert (GO : forall (dir mat surf : Z) th, pm1 dir -> surf = (if Z.eqb dir 1 then mat else mat - 1)%Z -> (0 <= mat <= Z.of_nat (length ws) + 1)%Z ->
    (dir = turn (s_dir st) o) -> mat = match o with OTransmitted _ => (s_mat st + s_dir st)%Z | _ => s_mat st end ->
    o = OReflected th \/ o = OTransmitted th ->
    exists r, (if (dir =? 1)%Z && (mat =? Z.of_nat (length (k_widths K)) - 1)%Z || (dir =? -1)%Z && (mat =? 0)%Z
     then Ok (inr {| s_dir := dir; s_mat := mat; s_surf := surf; s_I := s_I st; s_theta := Some th;
                    s_profile := s_profile st; s_A := s_A st; s_passes := s_passes st;
                    s_Aint := s_Aint st; s_Aidx := s_Aidx st |})
     else rbind (py_pos (length (k_widths K)) mat) (fun m =>
          rbind (py_index (k_alphas K) mat) (fun alpha =>
          let t := traverse (nth m (k_widths K) 0) th alpha (s_I st)
                 (depths_of (k_widths K) (k_zpos K) m) (k_thresh K) dir in
          let st' := {| s_dir := dir; s_mat := mat; s_surf := surf; s_I := tr_I t;
                    s_theta := tr_theta t;
                    s_profile := add_masked (depth_mask (k_widths K) (k_zpos K) m)
                                            (s_profile st) (tr_DA t);
                    s_A := set_A (s_A st) m (nth m (s_A st) 0 + s_I st - tr_I t);
                    s_passes := S (s_passes st);
                    s_Aint := s_Aint st; s_Aidx := s_Aidx st |} in
          if tr_stop t then Ok (inr st') else Ok (inl st')))) = Ok r /\
    match r with
    | inl st' => moved_to st o st' /\ placed (length ws) st' /\ s_passes st' = S (s_passes st)
    | inr st' => moved_to st o st'
    end).
  { intros dir mat surf th D S M E1 E2 E3.
    replace (Z.of_nat (length (k_widths K)) - 1)%Z with (Z.of_nat (length ws) + 1)%Z by (rewrite WL; lia).
    destruct ((dir =? 1)%Z && (mat =? Z.of_nat (length ws) + 1)%Z || (dir =? -1)%Z && (mat =? 0)%Z) eqn:En.
    - eexists. split; [reflexivity|]. cbv beta iota. split; [exact E1|]. split; [exact E2|]. cbn [s_theta]. intros t [= <-]. exact E3.
    - rewrite py_pos_ok by (rewrite WL; lia). cbn [rbind]. rewrite (py_index_ok _ _ 0) by (rewrite AL; lia). cbn [rbind]. cbv zeta.
      set (t := traverse _ _ _ _ _ _ _).
      set (st' := {| s_dir := dir |}).
      assert (MV : moved_to st o st').
      { split; [exact E1|]. split; [exact E2|]. cbn [s_theta st']. intros t' Q. unfold t, traverse in Q. cbn [tr_theta] in Q.
        destruct (Rltb _ _); [discriminate|]. injection Q as <-. exact E3. }
      destruct (tr_stop t).
      + eexists. split; [reflexivity|]. exact MV.
      + eexists. split; [reflexivity|]. split; [exact MV|]. split; [|reflexivity].
        split; [exact D|]. split; [exact S|]. cbn [s_surf st']. rewrite S.
        apply orb_false_iff in En. destruct En as [En1 En2].
        destruct D as [-> | ->]; cbn in En1, En2 |- *; [apply Z.eqb_neq in En1|apply Z.eqb_neq in En2]; lia. }
  destruct o as [th|th|A].
  - apply GO; auto.
    + destruct P1 as [-> | ->]; [right|left]; reflexivity.
    + rewrite P2. destruct P1 as [-> | ->]; cbn; lia.
    + rewrite P2 in P3. destruct P1 as [E|E]; rewrite E in P3; cbn in P3; lia.
  - apply GO; auto.
    + rewrite P2. destruct P1 as [-> | ->]; cbn; lia.
    + rewrite P2 in P3. destruct P1 as [E|E]; rewrite E in *; cbn in P3; lia.
  - eexists. split; [reflexivity|]. split; [reflexivity|]. split; [reflexivity|]. cbn [s_theta]. discriminate.
Qed.

(* ---------- one surface check ---------- *)

Definition pointed (dir : Z) (d : vec) : Prop := unit d /\ (dir = 1%Z -> vz d < 0) /\ (dir = (-1)%Z -> 0 < vz d).

Lemma face_ray_dir U f k p dir r d : vz d <> 0 -> snd (face_ray U f k p dir r d) = d.
Proof.
  intros H. unfold face_ray. destruct (u_randomize U && Nat.ltb 0 p); [|reflexivity].
  unfold randomized. unfold Reqb. destruct (Req_EM_T (vz d) 0); [contradiction|]. reflexivity.
Qed.

Lemma unit_vz d : unit d -> -1 <= vz d <= 1.
Proof. unfold unit, dot. intros H. pose proof (Rle_0_sqr (vx d)). pose proof (Rle_0_sqr (vy d)). unfold Rsqr in *. nra. Qed.

Lemma acos_up d : unit d -> 0 < vz d -> upwards (acos (vz d)).
Proof.
  intros H P. pose proof (unit_vz d H). pose proof (acos_bound (vz d)). pose proof (cos_acos (vz d) ltac:(lra)) as C.
  split; [lra|]. apply Rnot_le_lt. intros L. pose proof (cos_le_0 (acos (vz d)) L ltac:(lra)). lra.
Qed.

Lemma acos_down d : unit d -> vz d < 0 -> downwards (acos (vz d)).
Proof.
  intros H P. pose proof (unit_vz d H). pose proof (acos_bound (vz d)). pose proof (cos_acos (vz d) ltac:(lra)) as C.
  split; [|lra]. apply Rnot_le_lt. intros L. pose proof (cos_ge_0 (acos (vz d)) ltac:(lra) L). lra.
Qed.

(* what a check returns, if it returns, and the direction it leaves with is not level *)
Definition checked (dir : Z) (dec : decision) (res : iresult) : Prop :=
  unit (r_dir res) /\
  (vz (r_dir res) <> 0 ->
   ((forall A, r_out res <> OAbsorbed A) -> pointed (turn dir (r_out res)) (r_dir res)) /\
   (usable dec -> proper dir (r_out res)) /\
   (forall th, r_out res = OReflected th \/ r_out res = OTransmitted th -> th = acos (vz (r_dir res)))).

Lemma out_checked dir d dec res : pm1 dir -> pointed dir d -> unit (r_dir res) ->
  match r_out res with
  | OReflected th => th = acos (vz (r_dir res)) /\ turned_back (vz d) (r_dir res)
  | OTransmitted th => th = acos (vz (r_dir res)) /\ went_on (vz d) (r_dir res)
  | OAbsorbed A => exists th rnd, rnd < 1 /\ absorbs dec th rnd A
  end -> checked dir dec res.
Proof.
  intros Hd (Pu & P1 & P2) Hu H. split; [exact Hu|]. intros Hz.
  destruct (r_out res) as [th|th|A] eqn:E.
  - destruct H as [-> T]. unfold turned_back in T.
    assert (V : (dir = 1%Z /\ 0 < vz (r_dir res)) \/ (dir = (-1)%Z /\ vz (r_dir res) < 0)).
    { destruct Hd as [-> | ->]; [left; specialize (P1 eq_refl)|right; specialize (P2 eq_refl)]; split; auto;
        destruct (Rtotal_order (vz (r_dir res)) 0) as [?|[?|?]]; try contradiction; auto; nra. }
    split; [|split].
    + intros _. split; [exact Hu|]. cbn [turn]. destruct V as [[-> V]|[-> V]]; split; intros; try discriminate; auto.
    + intros _. cbn [proper]. destruct V as [[-> V]|[-> V]]; cbn [Z.eqb Pos.eqb]; [now apply acos_up|now apply acos_down].
    + intros t [[= <-]|Q]; [reflexivity|discriminate].
  - destruct H as [-> T]. unfold went_on in T.
    assert (V : (dir = 1%Z /\ vz (r_dir res) < 0) \/ (dir = (-1)%Z /\ 0 < vz (r_dir res))).
    { destruct Hd as [-> | ->]; [left; specialize (P1 eq_refl)|right; specialize (P2 eq_refl)]; split; auto;
        destruct (Rtotal_order (vz (r_dir res)) 0) as [?|[?|?]]; try contradiction; auto; nra. }
    split; [|split].
    + intros _. split; [exact Hu|]. cbn [turn]. destruct V as [[-> V]|[-> V]]; split; intros; try discriminate; auto.
    + intros _. cbn [proper]. destruct V as [[-> V]|[-> V]]; cbn [Z.eqb Pos.eqb]; [now apply acos_down|now apply acos_up].
    + intros t [Q|[= <-]]; [discriminate|reflexivity].
  - split; [|split].
    + intros N. exfalso. now apply (N A).
    + intros [_ HA]. cbn [proper]. destruct H as (th & rnd & L & H). now apply (HA th rnd).
    + intros t [Q|Q]; discriminate.
Qed.

Lemma check_contract (periodic : bool) fuel E r d dir n o : real_decision (e_dec E) -> (forall k, e_rnd E k < 1) -> pm1 dir -> pointed dir d ->
  (if periodic then single_interface_check fuel E r d dir n else option_map Ok (single_cell_check fuel E r d dir n)) = Some o ->
  exists res, o = Ok res /\ checked dir (e_dec E) res.
Proof.
  intros HE HR Hd Hp H. pose proof Hp as (Pu & P1 & P2).
  assert (Vz : vz d <> 0). { destruct Hd as [-> | ->]; [specialize (P1 eq_refl)|specialize (P2 eq_refl)]; lra. }
  destruct periodic.
  - destruct (interface_contract E r d dir n fuel o HE Pu Vz Hd H) as (res & -> & U & _ & _ & _ & C).
    exists res. split; auto. apply (out_checked dir d); auto. destruct (r_out res); try tauto. destruct C as [C _]. eauto.
  - destruct (single_cell_check fuel E r d dir n) as [res|] eqn:Q; [|discriminate]. cbn [option_map] in H. injection H as <-.
    exists res. split; auto. pose proof PI_RGT_0.
    destruct (cell_contract E d 0 HE Vz fuel r d dir 0 n res Pu Hd ltac:(lia) ltac:(lra) Q) as (U & _ & _ & _ & C).
    apply (out_checked dir d); auto. destruct (r_out res); try tauto. destruct C as [C _]. eauto.
Qed.

(* ---------- the whole ray ---------- *)

Record good_ray (ws : list R) (st : fstate) : Prop := {
  gr_placed : placed (length ws) (x_st st);
  gr_dir : pointed (s_dir (x_st st)) (x_dir st) }.

Section Run.
  Variables (fuel : nat) (U : setup) (ws : list R).
  Hypothesis HU : structure_of U ws.

  Lemma fstep_good st r : good_ray ws st -> fstep fuel U st = Some r ->
    exists res f ni nj, In f (u_faces U) /\ optical_medium ni /\ optical_medium nj /\ checked (s_dir (x_st st)) (f_dec f ni nj) res /\
    let after s' := {| x_st := s'; x_pos := Model_RayIface.r_pos res; x_dir := r_dir res; x_nint := r_nint res;
                       x_checks := S (x_checks st); x_phi := check_phi res; x_loc := r_loc res |} in
    exists q, sstep (u_K U) (x_st st) (r_out res) = Ok q /\
      match q with
      | inl s' => r = Ok (inl (after s')) /\ moved_to (x_st st) (r_out res) s' /\ placed (length ws) s' /\
                  s_passes s' = S (s_passes (x_st st))
      | inr s' => r = Ok (inr (after s')) /\ moved_to (x_st st) (r_out res) s'
      end.
  Proof.
    intros [Gp Gd] H. pose proof Gp as (P1 & P2 & P3). pose proof Gd as (Du & D1 & D2).
    assert (Vz : vz (x_dir st) <> 0). { destruct P1 as [E|E]; [specialize (D1 E)|specialize (D2 E)]; lra. }
    unfold fstep in H.
    destruct (py_index_in (u_faces U) (s_surf (x_st st))) as (f & Ef & Nf); [rewrite (st_faces _ _ HU); lia|]. rewrite Ef in H.
    pose proof (nth_error_In _ _ Nf) as If.
    pose proof (face_ray_dir U f (x_checks st) (s_passes (x_st st)) (s_dir (x_st st)) (x_pos st) (x_dir st) Vz) as FD.
    destruct (face_ray U f (x_checks st) (s_passes (x_st st)) (s_dir (x_st st)) (x_pos st) (x_dir st)) as [p d]. cbn [snd] in FD. subst d.
    assert (ML := st_media _ _ HU).
    destruct (py_index_in (u_nks U) (if Z.eqb (s_dir (x_st st)) 1 then s_mat (x_st st) else s_mat (x_st st) - 1)%Z) as (ni & Ei & Ni).
    { rewrite ML. destruct P1 as [E|E]; rewrite E in *; cbn [Z.eqb Pos.eqb] in *; lia. }
    destruct (py_index_in (u_nks U) (if Z.eqb (s_dir (x_st st)) 1 then s_mat (x_st st) + 1 else s_mat (x_st st))%Z) as (nj & Ej & Nj).
    { rewrite ML. destruct P1 as [E|E]; rewrite E in *; cbn [Z.eqb Pos.eqb] in *; lia. }
    rewrite Ei, Ej in H. cbn [rbind] in H.
    destruct (if u_periodic U then _ else _) as [o|] eqn:Q in H; [|discriminate].
    assert (Mi := st_index _ _ HU ni (nth_error_In _ _ Ni)). assert (Mj := st_index _ _ HU nj (nth_error_In _ _ Nj)).
    destruct (st_dec _ _ HU f ni nj If Mi Mj) as [RD _].
    destruct (check_contract (u_periodic U) fuel (face_env U f (x_checks st) ni nj) p (x_dir st) (s_dir (x_st st)) (x_nint st) o RD (st_rnd _ _ HU) P1 Gd Q)
      as (res & -> & C).
    exists res, f, ni, nj. split; auto. split; [exact Mi|]. split; [exact Mj|]. split; [exact C|]. cbv zeta.
    destruct (sstep_placed (u_K U) ws (x_st st) (r_out res) (st_stack _ _ HU) Gp) as (q & Eq & Hq). exists q. split; auto.
    rewrite Eq in H. destruct q as [s'|s']; injection H as <-; split; auto.
  Qed.

  Lemma frun_good outer : forall st out, good_ray ws st -> never_level fuel U st -> frun outer fuel U st = Some out ->
    exists fin outs n, out = Ok fin /\ proper_path (s_dir (x_st st)) outs /\
      srun n (u_K U) (x_st st) outs 0 = Some (Ok (x_st fin)) /\ (n = x_checks fin - x_checks st)%nat /\ (x_checks st < x_checks fin)%nat /\
      unit (x_dir fin) /\ (forall th, s_theta (x_st fin) = Some th ->
        th = acos (vz (x_dir fin)) /\ x_phi fin = atan2 (vy (x_dir fin)) (vx (x_dir fin))).
  Proof.
    induction outer as [|outer IH]; intros st out G NL H; [discriminate|]. cbn [frun] in H.
    destruct (fstep fuel U st) as [r|] eqn:F; [|discriminate].
    destruct (fstep_good st r G F) as (res & f & ni & nj & If & Mi & Mj & (Cu & C) & q & Eq & Hq). cbv zeta in Hq.
    assert (Us : usable (f_dec f ni nj)) by now apply (st_dec _ _ HU).
    destruct q as [s'|s'].
    - destruct Hq as (-> & (M1 & M2 & M3) & Pl & Pa). set (st' := {| x_st := s' |}) in *.
      assert (NZ : vz (r_dir res) <> 0). { apply (NL st'). exact (visit_first fuel U st (inl st') F). }
      destruct (C NZ) as (C1 & C2 & C3).
      assert (NA : forall A, r_out res <> OAbsorbed A).
      { intros A EA. rewrite EA in Eq. unfold sstep in Eq. repeat (match type of Eq with rbind ?x _ = _ => destruct x; cbn [rbind] in Eq; [|discriminate] end).
        discriminate. }
      assert (G' : good_ray ws st'). { split; [exact Pl|]. cbn [x_st x_dir st']. rewrite M1. apply C1; auto. }
      assert (NL' : never_level fuel U st'). { intros x Hx. apply NL. exact (visit_next fuel U st st' x F Hx). }
      destruct (IH st' out G' NL' H) as (fin & outs & n & -> & PP & SR & En & Lt & Uf & Th). cbn [x_st x_checks st'] in *.
      exists fin, (ocons (r_out res) outs), (S n). split; auto. split.
      + apply proper_cons; auto. rewrite <- M1. exact PP.
      + rewrite srun_cons, Eq. split; [exact SR|]. split; [lia|]. split; [lia|]. split; auto.
    - destruct Hq as (-> & (M1 & M2 & M3)). injection H as <-. set (st' := {| x_st := s' |}) in *.
      assert (NZ : vz (r_dir res) <> 0). { apply (NL st'). exact (visit_first fuel U st (inr st') F). }
      destruct (C NZ) as (C1 & C2 & C3).
      exists st', (ocons (r_out res) (fun _ => OAbsorbed [1])), 1%nat. split; auto. split.
      + apply proper_cons; auto. intros k. cbn [proper rsum]. split; [|lra]. intros a [<-|[]]. lra.
      + rewrite srun_cons, Eq. split; [reflexivity|]. cbn [x_checks st']. split; [lia|]. split; [lia|]. cbn [x_dir x_st x_phi st'].
        split; auto. intros th T. pose proof (M3 th T) as Q. split; [now apply C3|]. unfold check_phi. destruct Q as [-> | ->]; reflexivity.
  Qed.
End Run.

(* ---------- the start ---------- *)

Lemma first_dir r_a_0 x y : 0 < vz r_a_0 -> let d := snd (first_ray r_a_0 x y) in unit d /\ vz d < 0.
Proof.
  intros H d. assert (E : vsub (mkv x y 0) (vadd r_a_0 (mkv x y 0)) = vneg r_a_0).
  { unfold vsub, vadd, vneg. cbn [vx vy vz]. apply vec_ext; cbn [vx vy vz]; ring. }
  assert (Q : 0 < dot (vneg r_a_0) (vneg r_a_0)).
  { unfold dot, vneg. cbn [vx vy vz]. pose proof (Rle_0_sqr (vx r_a_0)). pose proof (Rle_0_sqr (vy r_a_0)). unfold Rsqr in *. nra. }
  assert (N : 0 < norm (vneg r_a_0)) by (unfold norm; now apply sqrt_lt_R0).
  unfold d, first_ray. cbn [snd]. rewrite E. split.
  - unfold unit. assert (D : dot (vneg r_a_0) (vneg r_a_0) = norm (vneg r_a_0) * norm (vneg r_a_0)) by (unfold norm; rewrite sqrt_sqrt; lra).
    set (v := vneg r_a_0) in *. replace (dot (vscale (/ norm v) v) (vscale (/ norm v) v)) with (/ norm v * / norm v * dot v v)
      by (unfold dot, vscale; cbn [vx vy vz]; ring). rewrite D. field. lra.
  - pose proof (Rinv_0_lt_compat _ N) as I. set (k := / norm (vneg r_a_0)) in *. clearbody k. unfold vscale, vneg. cbn [vz]. nra.
Qed.

Lemma fstart_good U ws r_a_0 x y mat dir : structure_of U ws -> good_start ws mat dir -> 0 < vz r_a_0 ->
  exists st, fstart U r_a_0 x y mat dir = Ok st /\ good_ray ws st /\ x_st st = sstart (u_K U) mat dir /\ x_checks st = 0%nat.
Proof.
  intros HU HG HV. unfold fstart, stack_start.
  assert (WL : length (k_widths (u_K U)) = S (S (length ws))) by (rewrite (so_widths _ _ (st_stack _ _ HU)); apply padded_length).
  set (cw := cumsum (map (fun w => 0 + w) (k_widths (u_K U)))).
  assert (CL : length cw = S (S (length ws))) by (unfold cw; unfold cumsum; rewrite Proof_RayProfile.cumsum_go_length, map_length; auto).
  clearbody cw. destruct (first_dir r_a_0 x y HV) as [Fu Fz].
  destruct (first_ray r_a_0 x y) as [ra d] eqn:FR. cbn [snd] in Fu, Fz.
  destruct HG as [[-> M]|[-> M]].
  - assert (exists sz, (if (1 =? 1)%Z && (0 <? mat)%Z then rbind (py_index cw (mat - 1)) (fun c => Ok (mat, - c - 1 / 10 ^ 8))
       else if (1 =? 1)%Z && (mat =? 0)%Z then Ok (0%Z, vz r_a_0)
       else rbind (py_index cw mat) (fun c => Ok ((mat - 1)%Z, - c + 1 / 10 ^ 8))) = Ok sz) as [sz Es].
    { cbn [Z.eqb Pos.eqb andb]. destruct (Z.ltb_spec 0 mat).
      - destruct (py_index_in cw (mat - 1)) as (c & -> & _); [lia|]. cbn [rbind]. eauto.
      - replace mat with 0%Z by lia. cbn. eauto. }
    rewrite Es. cbn [rbind]. eexists. split; [reflexivity|]. split; [|split; reflexivity]. split.
    + cbn [x_st]. split; [now left|]. split; [reflexivity|]. cbn. lia.
    + cbn [x_st x_dir sstart s_dir fst snd Z.eqb Pos.eqb]. split; auto. split; [auto|discriminate].
  - assert (exists sz, (if (-1 =? 1)%Z && (0 <? mat)%Z then rbind (py_index cw (mat - 1)) (fun c => Ok (mat, - c - 1 / 10 ^ 8))
       else if (-1 =? 1)%Z && (mat =? 0)%Z then Ok (0%Z, vz r_a_0)
       else rbind (py_index cw mat) (fun c => Ok ((mat - 1)%Z, - c + 1 / 10 ^ 8))) = Ok sz) as [sz Es].
    { cbn [Z.eqb Pos.eqb andb]. destruct (py_index_in cw mat) as (c & -> & _); [lia|]. cbn [rbind]. eauto. }
    rewrite Es. cbn [rbind]. eexists. split; [reflexivity|]. split; [|split; reflexivity]. split.
    + cbn [x_st]. split; [now right|]. split; [reflexivity|]. cbn. lia.
    + cbn [x_st x_dir sstart s_dir fst snd Z.eqb Pos.eqb]. split; [|split; [discriminate|]].
      * unfold unit, dot, set_z in *. cbn [vx vy vz]. lra.
      * intros _. unfold set_z. cbn [vz]. lra.
Qed.

Lemma ray_traced U ws st outer fuel r_a_0 x y m0 d0 out : structure_of U ws -> good_start ws m0 d0 -> 0 < vz r_a_0 ->
  fstart U r_a_0 x y m0 d0 = Ok st -> never_level fuel U st -> trace_stack outer fuel U r_a_0 x y m0 d0 = Some out ->
  exists fin, out = Ok fin /\ traced (u_K U) ws (x_st fin) /\ unit (x_dir fin) /\
    (forall th, s_theta (x_st fin) = Some th -> th = acos (vz (x_dir fin)) /\ x_phi fin = atan2 (vy (x_dir fin)) (vx (x_dir fin))).
Proof.
  intros HU HG HV E NL T. destruct (fstart_good U ws r_a_0 x y m0 d0 HU HG HV) as (st' & E' & G & Ex & _).
  rewrite E in E'. injection E' as <-. unfold trace_stack in T. rewrite E in T.
  destruct (frun_good fuel U ws HU outer st out G NL T) as (fin & outs & n & -> & PP & SR & _ & _ & Un & Th).
  rewrite Ex in PP, SR. exists fin. split; auto. split; [exists m0, d0, outs, n; auto|]. auto.
Qed.
