(* Lemmas about check_intersect and exit_side (C37, C38). *)
From Coq Require Import Reals List Bool ZArith Lra Lia Psatz.
From Verif Require Import Base Lib Model_Optics Spec_Optics Proof_Optics.
Import ListNotations.
Open Scope R_scope.

(* ---------- argmin over a total preorder ---------- *)

Section Argmin.
  Context {A : Type} (ltb : A -> A -> bool).
  Hypothesis irrefl : forall a, ltb a a = false.
  Hypothesis neg_trans : forall a b c, ltb a b = false -> ltb b c = false -> ltb a c = false.
  Hypothesis asym : forall a b, ltb a b = true -> ltb b a = false.

  Lemma argmin_go_spec (dflt : A) l : forall full bi b i,
    (bi < i)%nat -> nth bi full dflt = b -> skipn i full = l -> (i <= length full)%nat ->
    (forall j, (j < i)%nat -> ltb (nth j full dflt) b = false) ->
    let k := argmin_go ltb bi b i l in
    (k < length full)%nat /\ forall j, (j < length full)%nat -> ltb (nth j full dflt) (nth k full dflt) = false.
  Proof.
    induction l as [|a l IH]; intros full bi b i Hbi Hb Hsk Hi Hmin; cbn [argmin_go].
    - assert (length full <= i)%nat.
      { pose proof (skipn_length i full) as E. rewrite Hsk in E. cbn in E. lia. }
      split; [lia|]. intros j Hj. rewrite Hb. apply Hmin. lia.
    - assert (Hlt : (i < length full)%nat).
      { pose proof (skipn_length i full) as E. rewrite Hsk in E. cbn in E. lia. }
      assert (Ha : nth i full dflt = a).
      { rewrite <- (firstn_skipn i full) at 1. rewrite app_nth2; rewrite firstn_length_le by lia; [|lia].
        rewrite Nat.sub_diag, Hsk. reflexivity. }
      assert (Hsk' : skipn (S i) full = l).
      { change (S i) with (1 + i)%nat. rewrite Nat.add_comm.
        clear -Hsk. revert i Hsk. induction full as [|x f IHf]; intros i Hsk.
        - rewrite skipn_nil in Hsk. discriminate.
        - destruct i; cbn in *; [inversion Hsk; subst; reflexivity|]. apply IHf, Hsk. }
      destruct (ltb a b) eqn:E.
      + apply IH; try assumption; try lia.
        intros j Hj. destruct (Nat.eq_dec j i) as [->|]; [rewrite Ha; apply irrefl|].
        assert (Hf : ltb (nth j full dflt) b = false) by (apply Hmin; lia).
        apply neg_trans with b; [exact Hf|]. apply asym, E.
      + apply IH; try assumption; try lia.
        intros j Hj. destruct (Nat.eq_dec j i) as [->|]; [rewrite Ha; exact E|]. apply Hmin. lia.
  Qed.

  Lemma argmin_spec (dflt : A) l k : argmin ltb l = Ok k ->
    (k < length l)%nat /\ forall j, (j < length l)%nat -> ltb (nth j l dflt) (nth k l dflt) = false.
  Proof.
    destruct l as [|a l]; cbn [argmin]; intros H; [discriminate|].
    injection H as <-.
    apply (argmin_go_spec dflt l (a :: l) 0%nat a 1%nat); try reflexivity; cbn [length]; try lia.
    intros j Hj. destruct j; [|lia]. cbn. apply irrefl.
  Qed.
End Argmin.

Lemma argmin_Rltb l k : argmin Rltb l = Ok k ->
  (k < length l)%nat /\ forall j, (j < length l)%nat -> nth k l 0 <= nth j l 0.
Proof.
  intros H. destruct (argmin_spec Rltb
    ltac:(intros; apply Rltb_false; lra)
    ltac:(intros a b c; rewrite !Rltb_false; apply (fun h1 h2 => Rle_trans _ _ _ h2 h1))
    ltac:(intros a b; rewrite Rltb_true, Rltb_false; lra) 0 l k H) as [H1 H2].
  split; [exact H1|]. intros j Hj. apply Rltb_false, H2, Hj.
Qed.

Lemma argmin_olt l k : argmin olt l = Ok k ->
  (k < length l)%nat /\ forall j, (j < length l)%nat -> olt (nth j l None) (nth k l None) = false.
Proof.
  apply argmin_spec.
  - intros [a|]; cbn; [apply Rltb_false; lra|reflexivity].
  - intros [a|] [b|] [c|]; cbn; try discriminate; try reflexivity.
    rewrite !Rltb_false. lra.
  - intros [a|] [b|]; cbn; try discriminate; try reflexivity.
    rewrite Rltb_true, Rltb_false. lra.
Qed.

Lemma argmin_some {A} (ltb : A -> A -> bool) l : l <> [] -> exists k, argmin ltb l = Ok k.
Proof. destruct l as [|a l]; [congruence|]. intros _. cbn [argmin]. eauto. Qed.

(* ---------- intersection ---------- *)

Lemma hit_t_spec r d T t : hit_t r d T = Some t <-> meets r d T t.
Proof.
  unfold hit_t, meets, on_tri.
  set (e1 := vsub (t_P1 T) (t_P0 T)). set (e2 := vsub (t_P2 T) (t_P0 T)).
  set (c := vsub r (t_P0 T)). set (D := vneg d).
  assert (Ex : t_cross T = cross e1 e2) by reflexivity. rewrite Ex.
  set (den := dot D (cross e1 e2)).
  assert (Ed : dot d (cross e1 e2) = - den) by (unfold den, D; vexp; ring).
  assert (CR :
            vadd (vadd (vscale (dot (cross e2 D) c) e1) (vscale (dot (cross D e1) c) e2))
                 (vscale (dot (cross e1 e2) c) D) = vscale den c) .
  { unfold den. generalize D e1 e2 c. intros D' a b c'. apply vec_ext; vexp; ring. }
  destruct (Reqb den 0) eqn:E0.
  - apply Reqb_true in E0. split; [discriminate|]. intros (_ & _ & Hn). rewrite Ed, E0 in Hn. lra.
  - apply Reqb_false in E0. split.
    + destruct (_ && _) eqn:Et; [|discriminate]. intros Hs. injection Hs as Hs.
      apply andb_prop in Et as [Et Ht]. apply andb_prop in Et as [Huv Et].
      apply andb_prop in Et as [Hu Hv].
      apply Rltb_true in Ht. apply Rleb_true in Huv. apply Rleb_true in Hu. apply Rleb_true in Hv.
      rewrite Hs in Ht.
      split; [exact Ht|]. split; [|rewrite Ed; lra].
      exists (1 / den * dot (cross e2 D) c), (1 / den * dot (cross D e1) c).
      split; [exact Hu|]. split; [exact Hv|]. split; [exact Huv|].
      rewrite <- Hs.
      assert (Cx := f_equal vx CR). assert (Cy := f_equal vy CR). assert (Cz := f_equal vz CR).
      revert Cx Cy Cz. generalize (dot (cross e2 D) c) (dot (cross D e1) c) (dot (cross e1 e2) c).
      intros u v t'. clear Hs CR Ed Ht Huv Hu Hv Ex. clearbody den. revert E0.
      unfold c, D, vadd, vscale, vsub, vneg; cbn [vx vy vz]. intros E0 Cx Cy Cz.
      assert (K : forall rx px a b dd, u * a + v * b + t' * - dd = den * (rx - px) ->
                 rx + 1 / den * t' * dd = px + (1 / den * u * a + 1 / den * v * b)).
      { intros. apply Rmult_eq_reg_l with den; [|exact E0].
        transitivity (den * rx + t' * dd); [field; exact E0|].
        transitivity (den * px + (u * a + v * b)); [|field; exact E0]. lra. }
      apply vec_ext; cbn [vx vy vz]; apply K; assumption.
    + intros (Ht & (u & v & Hu & Hv & Huv & Hp) & Hn).
      assert (Ec : c = vadd (vadd (vscale u e1) (vscale v e2)) (vscale t D)).
      { assert (Px := f_equal vx Hp). assert (Py := f_equal vy Hp). assert (Pz := f_equal vz Hp).
        unfold vadd, vscale in Px, Py, Pz; cbn [vx vy vz] in *.
        unfold c, D, vadd, vscale, vneg; apply vec_ext; cbn [vx vy vz]; unfold vsub; cbn [vx vy vz]; lra. }
      assert (Eu : dot (cross e2 D) c = den * u)
        by (rewrite Ec; unfold den; generalize D e1 e2; intros D' a b; vexp; ring).
      assert (Ev : dot (cross D e1) c = den * v)
        by (rewrite Ec; unfold den; generalize D e1 e2; intros D' a b; vexp; ring).
      assert (Ett : dot (cross e1 e2) c = den * t)
        by (rewrite Ec; unfold den; generalize D e1 e2; intros D' a b; vexp; ring).
      rewrite Eu, Ev, Ett.
      replace (1 / den * (den * u)) with u by (field; exact E0).
      replace (1 / den * (den * v)) with v by (field; exact E0).
      replace (1 / den * (den * t)) with t by (field; exact E0).
      rewrite (proj2 (Rleb_true _ _) Huv), (proj2 (Rleb_true _ _) Hu), (proj2 (Rleb_true _ _) Hv),
        (proj2 (Rltb_true _ _) Ht). reflexivity.
Qed.

Definition hits r d surf :=
  flat_map (fun T => match hit_t r d T with Some t => [(t, T)] | None => [] end) surf.

Lemma in_hits r d surf t T : In (t, T) (hits r d surf) <-> In T surf /\ meets r d T t.
Proof.
  unfold hits. rewrite in_flat_map. split.
  - intros (T' & Hin & H). destruct (hit_t r d T') as [t'|] eqn:E; [|contradiction].
    destruct H as [H|[]]. injection H as <- <-. split; [exact Hin|]. apply hit_t_spec, E.
  - intros (Hin & H). exists T. split; [exact Hin|]. apply hit_t_spec in H. rewrite H. left. reflexivity.
Qed.

Lemma check_intersect_none r d surf :
  check_intersect r d surf = None <-> (forall T t, In T surf -> ~ meets r d T t).
Proof.
  unfold check_intersect. fold (hits r d surf). split.
  - intros H T t Hin Hm.
    assert (Hh : In (t, T) (hits r d surf)) by (apply in_hits; split; assumption).
    destruct (argmin_some Rltb (map fst (hits r d surf))) as [k Hk].
    { destruct (hits r d surf); [contradiction|discriminate]. }
    rewrite Hk in H. destruct (argmin_Rltb _ _ Hk) as [Hl _]. rewrite map_length in Hl.
    destruct (nth_error (hits r d surf) k) as [[t' T']|] eqn:E; [discriminate|].
    apply nth_error_None in E. lia.
  - intros H. destruct (hits r d surf) as [|[t T] rest] eqn:E; [reflexivity|]. exfalso.
    assert (Hin : In (t, T) (hits r d surf)) by (rewrite E; left; reflexivity).
    apply in_hits in Hin as [H1 H2]. exact (H T t H1 H2).
Qed.

Lemma check_intersect_some r d surf h : check_intersect r d surf = Some h ->
  exists T t, In T surf /\ meets r d T t /\
    h_point h = vadd r (vscale t d) /\ h_N h = t_N T /\
    h_theta h = atan (norm (cross (t_N T) (vneg d)) / dot (t_N T) (vneg d)) /\
    (forall T' t', In T' surf -> meets r d T' t' -> t <= t').
Proof.
  unfold check_intersect. fold (hits r d surf). intros H.
  destruct (argmin Rltb (map fst (hits r d surf))) as [k|] eqn:Ek; [|discriminate].
  destruct (argmin_Rltb _ _ Ek) as [Hl Hmin].
  destruct (nth_error (hits r d surf) k) as [[t T]|] eqn:E; [|discriminate].
  injection H as <-. exists T, t. cbn [h_point h_N h_theta].
  assert (Hin : In (t, T) (hits r d surf)) by (apply nth_error_In with k; exact E).
  apply in_hits in Hin as [H1 H2].
  split; [exact H1|]. split; [exact H2|]. split; [reflexivity|]. split; [reflexivity|].
  split; [reflexivity|]. intros T' t' HT' Hm'.
  assert (Hin' : In (t', T') (hits r d surf)) by (apply in_hits; split; assumption).
  apply In_nth_error in Hin' as [j Hj].
  assert (Hjl : (j < length (hits r d surf))%nat) by (apply nth_error_Some; rewrite Hj; discriminate).
  specialize (Hmin j ltac:(rewrite map_length; exact Hjl)).
  rewrite !(nth_map_lt fst _ _ (0, T)) in Hmin by (try rewrite map_length in Hl; assumption).
  rewrite (nth_error_nth _ _ _ E), (nth_error_nth _ _ _ Hj) in Hmin. exact Hmin.
Qed.

Lemma dot_zero a : dot a a = 0 -> a = mkv 0 0 0.
Proof. unfold dot. intros H. apply vec_ext; cbn [vx vy vz]; nra. Qed.

Lemma t_N_unit T : t_cross T <> mkv 0 0 0 -> unit (t_N T).
Proof.
  intros H. unfold unit, t_N. rewrite dot_scale_scale.
  assert (Hd : dot (t_cross T) (t_cross T) <> 0) by (intros Hz; apply H, dot_zero, Hz).
  pose proof (norm_sq (t_cross T)) as Hn.
  assert (norm (t_cross T) <> 0) by (intros Hz; rewrite Hz in Hn; lra).
  rewrite <- Hn. field. assumption.
Qed.

Lemma meets_cross r d T t : meets r d T t -> t_cross T <> mkv 0 0 0.
Proof.
  intros (_ & _ & H) E. apply H. fold (t_cross T). rewrite E. vexp. ring.
Qed.

Lemma meets_N r d T t : meets r d T t -> dot d (t_N T) <> 0.
Proof.
  intros Hm. pose proof (meets_cross _ _ _ _ Hm) as Hc. destruct Hm as (_ & _ & H).
  fold (t_cross T) in H. unfold t_N.
  replace (dot d (vscale (/ norm (t_cross T)) (t_cross T))) with (/ norm (t_cross T) * dot d (t_cross T))
    by (vexp; ring).
  pose proof (norm_sq (t_cross T)) as Hn.
  assert (norm (t_cross T) <> 0).
  { intros Hz. rewrite Hz in Hn. apply Hc, dot_zero. lra. }
  apply Rmult_integral_contrapositive. split; [apply Rinv_neq_0_compat; assumption|exact H].
Qed.

(* Lagrange's identity *)
Lemma cross_sq a b : dot (cross a b) (cross a b) = dot a a * dot b b - dot a b * dot a b.
Proof. vexp. ring. Qed.

Lemma angle_formula N d : unit N -> unit d -> dot N (vneg d) <> 0 ->
  let th := atan (norm (cross N (vneg d)) / dot N (vneg d)) in
  - (PI / 2) < th < PI / 2 /\ cos th = Rabs (dot d N) /\
  (0 < dot N (vneg d) -> 0 <= th) /\ (dot N (vneg d) < 0 -> th <= 0).
Proof.
  intros HN Hd Hne th. set (q := dot N (vneg d)) in *. set (c := norm (cross N (vneg d))) in *.
  assert (Hc : c * c + q * q = 1).
  { unfold c. rewrite norm_sq, cross_sq. fold q.
    assert (dot (vneg d) (vneg d) = dot d d) by (vexp; ring).
    rewrite H. unfold unit in *. rewrite HN, Hd. ring. }
  assert (Hc0 : 0 <= c) by apply norm_nonneg.
  split; [pose proof (atan_bound (c / q)); unfold th; lra|]. split.
  - unfold th. rewrite cos_atan.
    assert (E : 1 + (c / q)² = / (Rabs q * Rabs q)).
    { unfold Rsqr. replace (Rabs q * Rabs q) with (q * q)
        by (rewrite <- Rabs_mult; symmetry; apply Rabs_pos_eq; nra).
      apply Rmult_eq_reg_r with (q * q); [|nra]. rewrite Rinv_l by nra.
      transitivity (q * q + c * c); [field; exact Hne|]. lra. }
    rewrite E. assert (0 < Rabs q) by (apply Rabs_pos_lt; exact Hne).
    rewrite sqrt_inv by nra. rewrite sqrt_square by lra.
    replace (Rabs (dot d N)) with (Rabs q).
    + field. lra.
    + unfold q. replace (dot N (vneg d)) with (- dot d N) by (vexp; ring). apply Rabs_Ropp.
  - split; intros Hq; unfold th.
    + rewrite <- atan_0. assert (Hx : 0 <= c / q).
      { unfold Rdiv. apply Rmult_le_pos; [exact Hc0|]. left. apply Rinv_0_lt_compat, Hq. }
      destruct Hx as [Hx| <-]; [left; apply atan_increasing, Hx|right; reflexivity].
    + rewrite <- atan_0. assert (Hx : c / q <= 0).
      { unfold Rdiv. assert (/ q < 0) by (apply Rinv_lt_0_compat, Hq). nra. }
      destruct Hx as [Hx| ->]; [left; apply atan_increasing, Hx|right; reflexivity].
Qed.

(* ---------- unit cell ---------- *)

Definition wall_t (w : nat) (r d : vec) (Lx Ly : R) : R * R :=   (* distance, denominator *)
  match w with
  | 0%nat => (vy r - Ly, - vy d)
  | 1%nat => (vx r - Lx, - vx d)
  | 2%nat => (- vy r, vy d)
  | _ => (- vx r, vx d)
  end.

Definition wall_opt (num den : R) : option R :=
  let t := num / (if Reqb den 0 then 1 / 10 ^ 12 else den) in
  if Rltb 0 t then Some t else None.

Lemma wall_ts_eq r d Lx Ly : wall_ts r d Lx Ly =
  [wall_opt (vy r - Ly) (- vy d); wall_opt (vx r - Lx) (- vx d);
   wall_opt (- vy r) (vy d); wall_opt (- vx r) (vx d)].
Proof.
  unfold wall_ts, map2, wall_opt. unfold dot, vsub. cbn [vx vy vz].
  replace (vx d * 0 + vy d * -1 + vz d * 0) with (- vy d) by ring.
  replace (vx d * -1 + vy d * 0 + vz d * 0) with (- vx d) by ring.
  replace (vx d * 0 + vy d * 1 + vz d * 0) with (vy d) by ring.
  replace (vx d * 1 + vy d * 0 + vz d * 0) with (vx d) by ring.
  replace ((0 - vx r) * 0 + (Ly - vy r) * -1 + (0 - vz r) * 0) with (vy r - Ly) by ring.
  replace ((Lx - vx r) * -1 + (0 - vy r) * 0 + (0 - vz r) * 0) with (vx r - Lx) by ring.
  replace ((0 - vx r) * 0 + (0 - vy r) * 1 + (0 - vz r) * 0) with (- vy r) by ring.
  replace ((0 - vx r) * 1 + (0 - vy r) * 0 + (0 - vz r) * 0) with (- vx r) by ring.
  reflexivity.
Qed.

Lemma wall_opt_neg num den : num < 0 ->
  match wall_opt num den with
  | Some t => den < 0 /\ t * den = num /\ 0 < t
  | None => 0 <= den
  end.
Proof.
  intros Hn. unfold wall_opt. destruct (Reqb den 0) eqn:E0.
  - apply Reqb_true in E0. destruct (Rltb 0 (num / (1 / 10 ^ 12))) eqn:E1; [|lra].
    apply Rltb_true in E1. exfalso.
    assert (num / (1 / 10 ^ 12) = num * 10 ^ 12) by (field; lra). lra.
  - apply Reqb_false in E0. destruct (Rltb 0 (num / den)) eqn:E1.
    + apply Rltb_true in E1.
      assert (E : num / den * den = num) by (field; exact E0).
      split; [nra|]. split; [exact E|exact E1].
    + apply Rltb_false in E1.
      assert (E : num / den * den = num) by (field; exact E0).
      destruct (Rle_or_lt 0 den) as [|Hd]; [assumption|]. exfalso. nra.
Qed.

Definition wsome (t : option R) : R := match t with Some t => t | None => 0 end.

Lemma exit_side_spec Lx Ly r d : in_cell Lx Ly r -> (vx d <> 0 \/ vy d <> 0) ->
  let '(w, ot) := exit_side r d Lx Ly in
  (w < 4)%nat /\ exists t, ot = Some t /\ 0 < t /\
    on_wall Lx Ly w (vadd r (vscale t d)) /\
    (forall s, 0 <= s <= t -> in_closed_cell Lx Ly (vadd r (vscale s d))) /\
    (forall s, 0 <= s < t -> in_cell Lx Ly (vadd r (vscale s d))).
Proof.
  intros [Hx Hy] Hd. unfold exit_side. rewrite wall_ts_eq.
  pose proof (wall_opt_neg (vy r - Ly) (- vy d) ltac:(lra)) as W0.
  pose proof (wall_opt_neg (vx r - Lx) (- vx d) ltac:(lra)) as W1.
  pose proof (wall_opt_neg (- vy r) (vy d) ltac:(lra)) as W2.
  pose proof (wall_opt_neg (- vx r) (vx d) ltac:(lra)) as W3.
  set (o0 := wall_opt (vy r - Ly) (- vy d)) in *. set (o1 := wall_opt (vx r - Lx) (- vx d)) in *.
  set (o2 := wall_opt (- vy r) (vy d)) in *. set (o3 := wall_opt (- vx r) (vx d)) in *.
  destruct (argmin_some olt [o0; o1; o2; o3] ltac:(discriminate)) as [k Hk].
  rewrite Hk. destruct (argmin_olt _ _ Hk) as [Hl Hmin]. cbn [length] in Hl, Hmin.
  pose proof (Hmin 0%nat ltac:(lia)) as M0. pose proof (Hmin 1%nat ltac:(lia)) as M1.
  pose proof (Hmin 2%nat ltac:(lia)) as M2. pose proof (Hmin 3%nat ltac:(lia)) as M3.
  change (nth 0 [o0; o1; o2; o3] None) with o0 in M0. change (nth 1 [o0; o1; o2; o3] None) with o1 in M1.
  change (nth 2 [o0; o1; o2; o3] None) with o2 in M2. change (nth 3 [o0; o1; o2; o3] None) with o3 in M3.
  clear Hmin Hk.
  split; [exact Hl|].
  destruct (nth k [o0; o1; o2; o3] None) as [t|] eqn:Et.
  2:{ exfalso. clearbody o0 o1 o2 o3. clear Et. destruct o0, o1, o2, o3; cbn in M0, M1, M2, M3; try discriminate. destruct Hd as [Hd|Hd]; apply Hd; lra. }
  exists t. split; [reflexivity|].
  assert (T0 : forall s, 0 <= s <= t -> s * vy d <= Ly - vy r /\ s * vx d <= Lx - vx r /\
                         - vy r <= s * vy d /\ - vx r <= s * vx d).
  { clear Hl Et. clearbody o0 o1 o2 o3. intros s Hs.
    destruct o0 as [t0|], o1 as [t1|], o2 as [t2|], o3 as [t3|]; cbn [olt] in M0, M1, M2, M3;
      repeat match goal with M : Rltb _ _ = false |- _ => apply Rltb_false in M end;
      repeat match goal with W : _ /\ _ |- _ => destruct W end; repeat apply conj; nra. }
  assert (T1 : forall s, 0 <= s < t -> s * vy d < Ly - vy r /\ s * vx d < Lx - vx r /\
                         - vy r < s * vy d /\ - vx r < s * vx d).
  { clear Hl Et T0. clearbody o0 o1 o2 o3. intros s Hs.
    destruct o0 as [t0|], o1 as [t1|], o2 as [t2|], o3 as [t3|]; cbn [olt] in M0, M1, M2, M3;
      repeat match goal with M : Rltb _ _ = false |- _ => apply Rltb_false in M end;
      repeat match goal with W : _ /\ _ |- _ => destruct W end; repeat apply conj; nra. }
  assert (TP : 0 < t /\ on_wall Lx Ly k (vadd r (vscale t d))).
  { clear M0 M1 M2 M3 T0 T1. unfold on_wall, vadd, vscale; cbn [vx vy vz].
    destruct k as [|[|[|[|k]]]]; cbn [nth] in Et; [| | | |lia].
    - rewrite Et in W0. lra.
    - rewrite Et in W1. lra.
    - rewrite Et in W2. lra.
    - rewrite Et in W3. lra. }
  destruct TP as [TP TW].
  split; [exact TP|]. split; [exact TW|]. split.
  - intros s Hs. destruct (T0 s Hs) as (A1 & A2 & A3 & A4).
    unfold in_closed_cell, vadd, vscale; cbn [vx vy vz]. repeat apply conj; lra.
  - intros s Hs. destruct (T1 s Hs) as (A1 & A2 & A3 & A4).
    unfold in_cell, vadd, vscale; cbn [vx vy vz]. repeat apply conj; lra.
Qed.

Lemma translation_spec Lx Ly w p : (w < 4)%nat -> in_closed_cell Lx Ly p -> on_wall Lx Ly w p ->
  let q := vadd p (translation Lx Ly w) in
  on_wall Lx Ly (opposite w) q /\ in_closed_cell Lx Ly q /\ vz q = vz p.
Proof.
  intros Hw Hc Ho q. unfold q, translation. clear q.
  unfold in_closed_cell in *.
  destruct w as [|[|[|[|w]]]]; [| | | |lia]; cbn [nth opposite on_wall] in *;
    unfold vadd; cbn [vx vy vz]; repeat apply conj; lra.
Qed.

Lemma exit_side_vertical Lx Ly r d : in_cell Lx Ly r -> vx d = 0 -> vy d = 0 ->
  exit_side r d Lx Ly = (0%nat, None).
Proof.
  intros [Hx Hy] Hd1 Hd2. unfold exit_side. rewrite wall_ts_eq, Hd1, Hd2.
  pose proof (wall_opt_neg (vy r - Ly) (- 0) ltac:(lra)) as W0.
  pose proof (wall_opt_neg (vx r - Lx) (- 0) ltac:(lra)) as W1.
  pose proof (wall_opt_neg (- vy r) 0 ltac:(lra)) as W2.
  pose proof (wall_opt_neg (- vx r) 0 ltac:(lra)) as W3.
  destruct (wall_opt (vy r - Ly) (- 0)); [lra|].
  destruct (wall_opt (vx r - Lx) (- 0)); [lra|].
  destruct (wall_opt (- vy r) 0); [lra|].
  destruct (wall_opt (- vx r) 0); [lra|]. reflexivity.
Qed.
