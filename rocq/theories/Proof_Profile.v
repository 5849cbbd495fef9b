(* Proofs of C15 (bulk profile) and C73 (interface profile) *)
From Coq Require Import Reals List ZArith Bool Lia Lra Psatz.
From Verif Require Import Base Lib Model_Angles Model_Ideal Model_MatMul Spec_Matrix Spec_MatMul
  Proof_MatMul Proof_RAT Proof_RAT2.
Import ListNotations.
Open Scope R_scope.

Lemma ftrapz_some y : forall x, ftrapz (map Some y) x = Some (trapz y x).
Proof.
  induction y as [|y0 y IH]; intros x; [destruct x; auto|].
  destruct y as [|y1 y]; [destruct x as [|? [|]]; auto|].
  destruct x as [|x0 [|x1 x]]; auto.
  change (ftrapz (map Some (y0 :: y1 :: y)) (x0 :: x1 :: x)) with
    (fadd (fmul (Some ((x1 - x0) / 2)) (fadd (Some y0) (Some y1))) (ftrapz (map Some (y1 :: y)) (x1 :: x))).
  rewrite IH.
  change (trapz (y0 :: y1 :: y) (x0 :: x1 :: x)) with ((x1 - x0) * (y0 + y1) / 2 + trapz (y1 :: y) (x1 :: x)).
  cbn [fadd fmul]. f_equal. lra.
Qed.

Lemma fsum_some l : fsum (map Some l) = Some (rsum l).
Proof. induction l as [|a l IH]; auto. unfold fsum in *. simpl. rewrite IH. auto. Qed.

Lemma trapz_nonneg y : forall x, (forall a, In a y -> 0 <= a) ->
  (forall i, (S i < length x)%nat -> nth i x 0 < nth (S i) x 0) -> 0 <= trapz y x.
Proof.
  induction y as [|y0 y IH]; intros x Hy Hx; [destruct x; simpl; lra|].
  destruct y as [|y1 y]; [destruct x as [|? [|]]; simpl; lra|].
  destruct x as [|x0 [|x1 x]]; try (simpl; lra).
  assert (H1 := IH (x1 :: x) ltac:(intros; apply Hy; simpl; auto)
    ltac:(intros i Hi; apply (Hx (S i)); simpl in *; lia)).
  pose proof (Hx 0%nat ltac:(simpl; lia)) as H2. simpl in H2.
  assert (0 <= y0) by (apply Hy; simpl; auto). assert (0 <= y1) by (apply Hy; simpl; auto).
  change (trapz (y0 :: y1 :: y) (x0 :: x1 :: x)) with ((x1 - x0) * (y0 + y1) / 2 + trapz (y1 :: y) (x1 :: x)). nra.
Qed.

Lemma trapz_pos y x : length y = length x -> (2 <= length x)%nat -> (forall a, In a y -> 0 < a) ->
  (forall i, (S i < length x)%nat -> nth i x 0 < nth (S i) x 0) -> 0 < trapz y x.
Proof.
  intros HL H2 Hy Hx. destruct x as [|x0 [|x1 x]]; simpl in H2; try lia.
  destruct y as [|y0 [|y1 y]]; simpl in HL; try lia.
  change (trapz (y0 :: y1 :: y) (x0 :: x1 :: x)) with ((x1 - x0) * (y0 + y1) / 2 + trapz (y1 :: y) (x1 :: x)).
  assert (H1 : 0 <= trapz (y1 :: y) (x1 :: x)).
  { apply trapz_nonneg; [intros a Ha; apply Rlt_le, Hy; simpl in *; tauto|].
    intros i Hi; apply (Hx (S i)); simpl in *; lia. }
  pose proof (Hx 0%nat ltac:(simpl; lia)) as H3. simpl in H3.
  assert (0 < y0) by (apply Hy; simpl; auto). assert (0 < y1) by (apply Hy; simpl; auto). nra.
Qed.

(* attenuated power *)
Definition crossed (alpha thick : R) (thetas v : list R) : list R :=
  diag_mul (map (fun t => exp (- alpha * thick / Rabs (cos t))) thetas) v.

Definition depth_value (alpha : R) (thetas v : list R) (z : R) : R :=
  rsum (map2 (fun x t => alpha * x * / Rabs (cos t) * exp (- alpha * z / Rabs (cos t))) v thetas).

Lemma denom_pos alpha d t : 0 < alpha * d -> cos t <> 0 -> 0 < 1 - exp (- alpha * d / Rabs (cos t)).
Proof.
  intros Ha Hc. assert (0 < Rabs (cos t)) by (apply Rabs_pos_lt; auto).
  assert (exp (- alpha * d / Rabs (cos t)) < 1); [|lra].
  rewrite <- exp_0. apply exp_increasing. apply Rmult_lt_reg_r with (Rabs (cos t)); auto.
  unfold Rdiv. rewrite Rmult_assoc, Rinv_l by lra. lra.
Qed.

(* the normalised weights are the incoming powers *)
Lemma norm_eq alpha d : 0 < alpha * d -> forall thetas v gn, length v = length thetas -> length gn = length thetas ->
  (forall t, In t thetas -> cos t <> 0) ->
  map2 (fun pd g => fdiv_where (fst pd) (snd pd) g)
    (combine (map2 Rminus v (crossed alpha d thetas v))
       (map (fun c => 1 - exp (- alpha * d / c)) (map (fun t => Rabs (cos t)) thetas))) gn = map Some v.
Proof.
  intros Ha. unfold crossed, diag_mul. induction thetas as [|t thetas IH]; intros v gn Hv Hg Hc; destruct v as [|x v]; try discriminate; auto.
  destruct gn as [|g0 gn]; try discriminate.
  simpl in Hv, Hg. injection Hv as Hv. injection Hg as Hg.
  cbn [map map2 combine fst snd]. f_equal.
  - unfold fdiv_where. pose proof (denom_pos alpha d t Ha (Hc t (or_introl eq_refl))) as Hp.
    destruct (Reqb _ 0) eqn:E; [apply Reqb_true in E; lra|]. f_equal. field. lra.
  - apply IH; auto. intros; apply Hc; simpl; auto.
Qed.

Lemma result_eq alpha thetas z : forall v,
  map2 (fun nm c => fmul (fmul (fmul (Some alpha) nm) (Some (/ c))) (Some (exp (- alpha * z / c))))
    (map Some v) (map (fun t => Rabs (cos t)) thetas) =
  map Some (map2 (fun x t => alpha * x * / Rabs (cos t) * exp (- alpha * z / Rabs (cos t))) v thetas).
Proof.
  induction thetas as [|t thetas IH]; intros [|x v]; auto. cbn [map map2 fmul]. f_equal; auto.
Qed.

Lemma depth_value_pos alpha thetas z : 0 < alpha -> (forall t, In t thetas -> cos t <> 0) -> forall v,
  length v = length thetas -> vpos v -> 0 <= depth_value alpha thetas v z /\ (0 < rsum v -> 0 < depth_value alpha thetas v z).
Proof.
  intros Ha Hc v. unfold depth_value. revert v Hc. induction thetas as [|t thetas IH]; intros v Hc Hl Hp;
    destruct v as [|x v]; try discriminate; simpl; [split; lra|].
  destruct (IH v) as [I1 I2]; auto; [intros; apply Hc; simpl; auto|intros a Hin; apply Hp; simpl; auto|].
  assert (0 < / Rabs (cos t)) by (apply Rinv_0_lt_compat, Rabs_pos_lt, Hc; simpl; auto).
  assert (0 < exp (- alpha * z / Rabs (cos t))) by (apply exp_pos).
  assert (0 <= x) by (apply Hp; simpl; auto).
  set (a := / Rabs (cos t)) in *. set (e := exp _) in *.
  assert (0 < alpha * a * e) by (apply Rmult_lt_0_compat; [apply Rmult_lt_0_compat|]; auto).
  replace (alpha * x * a * e) with (alpha * a * e * x) by ring.
  split; [nra|]. intros Hs. destruct (Req_dec x 0) as [->|]; [|nra].
  assert (0 < rsum v) by lra. specialize (I2 H3). lra.
Qed.

Lemma profile_regular alpha d thetas v depths A gn gs :
  0 < alpha -> 0 < d -> (forall t, In t thetas -> cos t <> 0) -> length v = length thetas -> length gn = length thetas ->
  vpos v -> 0 < rsum v -> (2 <= length depths)%nat ->
  (forall i, (S i < length depths)%nat -> nth i depths 0 < nth (S i) depths 0) ->
  exists s, bulk_profile_calc v (crossed alpha d thetas v) alpha thetas d depths A gn gs =
    map Some (map (fun z => s * depth_value alpha thetas v z) depths) /\
    trapz (map (fun z => s * depth_value alpha thetas v z) depths) depths = A /\ (0 <= A -> 0 <= s).
Proof.
  intros Ha Hd Hc Hv Hg Hp Hs H2 Hx.
  assert (Had : 0 < alpha * d) by (apply Rmult_lt_0_compat; auto).
  set (k := trapz (map (depth_value alpha thetas v) depths) depths).
  assert (Hk : 0 < k).
  { apply trapz_pos; auto; [apply map_length|]. intros a Hin. apply in_map_iff in Hin. destruct Hin as [z [<- _]].
    apply (depth_value_pos alpha thetas z Ha Hc v Hv Hp). auto. }
  exists (A / k). split; [|split].
  - unfold bulk_profile_calc. cbv zeta. rewrite (norm_eq alpha d Had thetas v gn Hv Hg Hc).
    replace (map (fun z => fsum (map2 _ (map Some v) _)) depths) with (map Some (map (depth_value alpha thetas v) depths)).
    2:{ rewrite map_map. apply map_ext. intros z. rewrite result_eq, fsum_some. auto. }
    rewrite ftrapz_some. fold k. unfold fdiv_where. destruct (Reqb k 0) eqn:E; [apply Reqb_true in E; lra|].
    rewrite !map_map. apply map_ext. intros z. auto.
  - replace (map (fun z => A / k * depth_value alpha thetas v z) depths) with
      (map (fun y => A / k * y) (map (depth_value alpha thetas v) depths)) by (rewrite map_map; auto).
    rewrite trapz_scale. fold k. field. lra.
  - intros HA. unfold Rdiv. apply Rmult_le_pos; auto. apply Rlt_le, Rinv_0_lt_compat. auto.
Qed.

(* trapezoidal rule on a uniform grid does not see the order *)
Fixpoint tz (s : R) (y : list R) : R :=
  match y with y0 :: ((y1 :: _) as y') => s * (y0 + y1) / 2 + tz s y' | _ => 0 end.

Lemma tz_snoc s l a b : tz s (l ++ [a; b]) = tz s (l ++ [a]) + s * (a + b) / 2.
Proof.
  induction l as [|x l IH]; [simpl; lra|]. destruct l as [|y l].
  - simpl. lra.
  - cbn [app tz]. cbn [app tz] in IH. rewrite IH. destruct (l ++ [a; b]), (l ++ [a]); lra.
Qed.

Lemma tz_rev s l : tz s (rev l) = tz s l.
Proof.
  induction l as [|a l IH]; auto. destruct l as [|b l]; auto.
  simpl rev in *. rewrite <- app_assoc. simpl app. rewrite tz_snoc, IH. simpl. destruct l; lra.
Qed.

Lemma trapz_uniform step y : forall k, trapz y (map (fun i => INR i * step) (seq k (length y))) = tz step y.
Proof.
  induction y as [|a y IH]; intros k; auto. destruct y as [|b y]; auto.
  specialize (IH (S k)). cbn [length seq map trapz tz] in *. rewrite IH.
  rewrite !S_INR. lra.
Qed.

Lemma trapz_flip y stop step : length y = length (arange0 stop step) ->
  trapz (rev y) (arange0 stop step) = trapz y (arange0 stop step).
Proof.
  unfold arange0. rewrite map_length, seq_length. intros H. rewrite <- H.
  rewrite trapz_uniform. rewrite <- (rev_length y), trapz_uniform. apply tz_rev.
Qed.

Lemma arange0_inc stop step : 0 < step -> forall i, (S i < length (arange0 stop step))%nat ->
  nth i (arange0 stop step) 0 < nth (S i) (arange0 stop step) 0.
Proof.
  unfold arange0. rewrite map_length, seq_length. intros Hs i Hi.
  rewrite !nth_map_lt with (da := 0%nat) by (rewrite seq_length; lia). rewrite !nth_seq0 by lia. rewrite S_INR. nra.
Qed.

Lemma make_D_single alpha thick thetas v : dot_wl_D (make_D [alpha] thick thetas) [v] = [crossed alpha thick thetas v].
Proof. auto. Qed.

Lemma arange0_two stop step : 0 < step < stop -> (2 <= length (arange0 stop step))%nat.
Proof.
  intros H. unfold arange0. rewrite map_length, seq_length.
  assert (1 < stop / step).
  { apply Rmult_lt_reg_r with step; [lra|]. unfold Rdiv. rewrite Rmult_assoc, Rinv_l by lra. lra. }
  pose proof (Zceil_bounds (stop / step)) as [_ Hb].
  assert (1 < Zceil (stop / step))%Z by (apply lt_IZR; lra). lia.
Qed.

Lemma C15_down alpha thick spacing thetas v gn gs :
  0 < alpha -> 0 < spacing < thick -> (forall t, In t thetas -> cos t <> 0) ->
  length v = length thetas -> length gn = length thetas -> (forall x, In x v -> 0 <= x) -> 0 < rsum v ->
  forall v2, dot_wl_D (make_D [alpha] thick thetas) [v] = [v2] ->
  let depths := arange0 thick spacing in
  exists prof, bulk_profile_calc v v2 alpha thetas thick depths (rsum v - rsum v2) gn gs = map Some prof /\
    length prof = length depths /\ (forall x, In x prof -> 0 <= x) /\
    trapz prof depths = rsum v - rsum v2 /\ trapz (rev prof) depths = rsum v - rsum v2.
Proof.
  intros Ha Hsp Hc Hv Hg Hp Hs v2 E depths. rewrite make_D_single in E. injection E as <-.
  destruct (profile_regular alpha thick thetas v depths (rsum v - rsum (crossed alpha thick thetas v)) gn gs)
    as [s [E1 [E2 E3]]]; auto; try lra.
  - apply arange0_two. auto.
  - apply arange0_inc. lra.
  - eexists. split; [exact E1|].
    assert (L : length (map (fun z => s * depth_value alpha thetas v z) depths) = length depths) by apply map_length.
    split; auto. split; [|split; auto; eapply eq_trans; [apply (trapz_flip _ thick spacing); exact L|exact E2]].
    intros x Hx. apply in_map_iff in Hx. destruct Hx as [z [<- _]].
    apply Rmult_le_pos.
    + apply E3.
      destruct (diag_mul_bounds (map (fun t => exp (- alpha * thick / Rabs (cos t))) thetas) v) as [_ B]; auto.
      * intros y Hy. apply in_map_iff in Hy. destruct Hy as [t [<- Ht]]. split; [apply Rlt_le, exp_pos|].
        pose proof (denom_pos alpha thick t ltac:(apply Rmult_lt_0_compat; lra) (Hc t Ht)). lra.
      * fold (crossed alpha thick thetas v) in B. lra.
    + apply (depth_value_pos alpha thetas z Ha Hc v Hv Hp).
Qed.

(* wavelengths without light or without absorption: fine if the uninitialised memory is a number *)
Lemma fl_zero_sum (l : list fl) : (forall x, In x l -> x = Some 0) -> fsum l = Some 0.
Proof.
  induction l as [|a l IH]; intros H; auto. unfold fsum in *. simpl. rewrite IH by (intros; apply H; simpl; auto).
  rewrite (H a) by (simpl; auto). simpl. f_equal. lra.
Qed.
Lemma ftrapz_zero : forall (y : list fl) (x : list R), (forall a, In a y -> a = Some 0) -> ftrapz y x = Some 0.
Proof.
  induction y as [|y0 y IH]; intros x H; [destruct x; auto|].
  destruct y as [|y1 y]; [destruct x as [|? [|]]; auto|]. destruct x as [|x0 [|x1 x]]; auto.
  change (ftrapz (y0 :: y1 :: y) (x0 :: x1 :: x)) with
    (fadd (fmul (Some ((x1 - x0) / 2)) (fadd y0 y1)) (ftrapz (y1 :: y) (x1 :: x))).
  rewrite IH by (intros; apply H; simpl; auto). rewrite (H y0), (H y1) by (simpl; auto). simpl. f_equal. lra.
Qed.

Lemma in_map2 {A B C} (f : A -> B -> C) : forall l m y, In y (map2 f l m) -> exists a b, In a l /\ In b m /\ y = f a b.
Proof.
  induction l as [|a l IH]; intros [|b m] y H; simpl in H; try contradiction.
  destruct H as [<-|H]; [exists a, b; simpl; auto|]. destruct (IH m y H) as [a' [b' [A1 [B1 C1]]]]. exists a', b'. simpl. auto.
Qed.

Lemma C15_dark alpha thick spacing thetas v (gn : list fl) gs :
  length v = length thetas -> length gn = length thetas -> (forall x, In x v -> 0 <= x) ->
  (forall t, In t thetas -> cos t <> 0) -> 0 < thick -> 0 <= alpha ->
  alpha = 0 \/ rsum v = 0 ->
  (forall y, In y gn -> y <> None) -> gs <> None ->
  forall v2, dot_wl_D (make_D [alpha] thick thetas) [v] = [v2] ->
  let depths := arange0 thick spacing in
  forall x, In x (bulk_profile_calc v v2 alpha thetas thick depths (rsum v - rsum v2) gn gs) -> x = Some 0.
Proof.
  intros Hv Hg Hp Hc Ht Ha0 Hcase Hgn Hgs v2 E depths. rewrite make_D_single in E. injection E as <-.
  unfold bulk_profile_calc. cbv zeta.
  set (norm := map2 (fun pd g => fdiv_where (fst pd) (snd pd) g) _ gn).
  assert (Hn : forall y, In y norm -> exists r, y = Some r /\ alpha * r = 0).
  { intros y Hy. destruct Hcase as [->|Hz].
    - apply in_map2 in Hy. destruct Hy as [pd [g0 [_ [Hg0 ->]]]]. unfold fdiv_where.
      destruct (Reqb (snd pd) 0); [|eexists; split; eauto; ring].
      destruct g0 as [r|] eqn:Eg; [exists r; split; auto; ring|exfalso; apply (Hgn g0); subst; auto].
    - destruct (Req_dec alpha 0) as [->|Hne].
      { apply in_map2 in Hy. destruct Hy as [pd [g0 [_ [Hg0 ->]]]]. unfold fdiv_where.
        destruct (Reqb (snd pd) 0); [|eexists; split; eauto; ring].
        destruct g0 as [r|] eqn:Eg; [exists r; split; auto; ring|exfalso; apply (Hgn g0); subst; auto]. }
      assert (0 < alpha) by lra. unfold norm in Hy. rewrite norm_eq in Hy; auto; [|apply Rmult_lt_0_compat; auto].
      apply in_map_iff in Hy. destruct Hy as [r [<- Hr]]. exists r. split; auto.
      assert (r = 0); [|subst; ring].
      clear - Hr Hz Hp. revert Hz Hp Hr. induction v as [|a v IH]; intros Hz Hp Hr; [destruct Hr|].
      assert (0 <= a) by (apply Hp; simpl; auto).
      assert (0 <= rsum v) by (apply rsum_nonneg; intros; apply Hp; simpl; auto). simpl in Hz.
      destruct Hr as [<-|Hr]; [lra|]. apply IH; auto; [lra|]. intros; apply Hp; simpl; auto. }
  set (res := map _ depths).
  assert (Hres : forall y, In y res -> y = Some 0).
  { intros y Hy. apply in_map_iff in Hy. destruct Hy as [z [<- _]]. apply fl_zero_sum.
    intros x Hx. apply in_map2 in Hx. destruct Hx as [nm [cc [Hnm [_ ->]]]].
    destruct (Hn nm Hnm) as [r [-> Hr]]. cbn [fmul]. rewrite Hr. f_equal. ring. }
  rewrite (ftrapz_zero res depths Hres). unfold fdiv_where. rewrite Reqb_refl.
  intros x Hx. apply in_map_iff in Hx. destruct Hx as [y [<- Hy]]. rewrite (Hres y Hy).
  destruct gs as [q|]; [|congruence]. simpl. f_equal. ring.
Qed.

Lemma C15_nan : exists thetas v (gn : list fl) gs v2,
  0 < rsum v /\ (forall t, In t thetas -> cos t <> 0) /\
  dot_wl_D (make_D [0] 1 thetas) [v] = [v2] /\ rsum v - rsum v2 = 0 /\
  exists x, In x (bulk_profile_calc v v2 0 thetas 1 (arange0 1 (1 / 2)) (rsum v - rsum v2) gn gs) /\ x = None.
Proof.
  exists [0], [1], [None], (Some 0). eexists.
  split; [simpl; lra|]. split; [intros t [<-|[]]; rewrite cos_0; lra|]. split; [reflexivity|].
  assert (E : exp (- 0 * 1 / Rabs (cos 0)) = 1) by (replace (- 0 * 1 / Rabs (cos 0)) with 0 by (unfold Rdiv; ring); apply exp_0).
  split; [simpl; rewrite E; lra|].
  exists None. split; auto.
  assert (HD : arange0 1 (1 / 2) = [0 * (1 / 2); 1 * (1 / 2)]).
  { unfold arange0. replace (1 / (1 / 2)) with (IZR 2) by (simpl; field).
    rewrite (Zceil_unique (IZR 2) 2); [simpl; reflexivity|]. simpl. lra. }
  rewrite HD. unfold bulk_profile_calc. cbn [map2 map diag_mul combine fst snd].
  assert (F : fdiv_where (1 - exp (- 0 * 1 / Rabs (cos 0)) * 1) (1 - exp (- 0 * 1 / Rabs (cos 0))) None = None).
  { unfold fdiv_where. rewrite E. destruct (Reqb (1 - 1) 0) eqn:Q; auto. apply Reqb_false in Q. lra. }
  rewrite F. cbn. auto.
Qed.

Lemma C15_one_depth alpha thick spacing thetas v gn gs :
  0 < alpha -> 0 < thick <= spacing -> (forall t, In t thetas -> cos t <> 0) ->
  length v = length thetas -> (forall x, In x v -> 0 <= x) -> 0 < rsum v ->
  forall v2, dot_wl_D (make_D [alpha] thick thetas) [v] = [v2] ->
  ftrapz (bulk_profile_calc v v2 alpha thetas thick (arange0 thick spacing) (rsum v - rsum v2) gn gs)
    (arange0 thick spacing) = Some 0 /\ 0 < rsum v - rsum v2.
Proof.
  intros Ha Ht Hc Hv Hp Hs v2 E. rewrite make_D_single in E. injection E as <-.
  assert (HD : arange0 thick spacing = [0 * spacing]).
  { unfold arange0. rewrite (Zceil_unique (thick / spacing) 1); [reflexivity|]. simpl. split.
    - assert (0 < thick / spacing) by (apply Rdiv_lt_0_compat; lra). lra.
    - apply Rmult_le_reg_r with spacing; [lra|]. unfold Rdiv. rewrite Rmult_assoc, Rinv_l by lra. lra. }
  rewrite HD. split.
  - unfold bulk_profile_calc. cbn [map ftrapz]. auto.
  - clear HD. unfold crossed. revert v Hv Hp Hs Hc. induction thetas as [|t thetas IH]; intros v Hv Hp Hs Hc; destruct v as [|x v]; try discriminate; simpl in *; [lra|].
    pose proof (denom_pos alpha thick t ltac:(apply Rmult_lt_0_compat; lra) (Hc t (or_introl eq_refl))) as HP.
    fold (diag_mul (map (fun t => exp (- alpha * thick / Rabs (cos t))) thetas) v).
    assert (0 <= x) by auto.
    assert (HB : rsum (diag_mul (map (fun t => exp (- alpha * thick / Rabs (cos t))) thetas) v) <= rsum v).
    { apply diag_mul_bounds; auto. intros y Hy. apply in_map_iff in Hy. destruct Hy as [t' [<- Ht']].
      split; [apply Rlt_le, exp_pos|].
      pose proof (denom_pos alpha thick t' ltac:(apply Rmult_lt_0_compat; lra) (Hc t' (or_intror Ht'))). lra. }
    destruct (Req_dec x 0) as [->|Hx].
    + specialize (IH v ltac:(lia) ltac:(intros; apply Hp; auto) ltac:(lra) ltac:(intros; apply Hc; auto)). lra.
    + assert (0 < x) by lra. nra.
Qed.

(* ---------- C73 ---------- *)

Lemma trapz_sum nb (s : nat -> R) P : forall x, length P = length x ->
  trapz (map (fun p => rsum (map (fun j => s j * nth j p 0) (seq 0 nb))) P) x =
  rsum (map (fun j => s j * trapz (map (fun p => nth j p 0) P) x) (seq 0 nb)).
Proof.
  induction P as [|p0 P IH]; intros x HL; destruct x as [|x0 x]; try discriminate.
  - simpl. rewrite rsum_map_0; auto. intros; ring.
  - destruct P as [|p1 P], x as [|x1 x]; try discriminate.
    + simpl. rewrite rsum_map_0; auto. intros; ring.
    + injection HL as HL. specialize (IH (x1 :: x) ltac:(simpl; lia)).
      change (trapz (map (fun p => rsum (map (fun j => s j * nth j p 0) (seq 0 nb))) (p0 :: p1 :: P)) (x0 :: x1 :: x)) with
        ((x1 - x0) * (rsum (map (fun j => s j * nth j p0 0) (seq 0 nb)) + rsum (map (fun j => s j * nth j p1 0) (seq 0 nb))) / 2 +
         trapz (map (fun p => rsum (map (fun j => s j * nth j p 0) (seq 0 nb))) (p1 :: P)) (x1 :: x)).
      rewrite IH.
      rewrite (rsum_map_ext (fun j => s j * trapz (map (fun p => nth j p 0) (p0 :: p1 :: P)) (x0 :: x1 :: x))
        (fun j => ((x1 - x0) / 2 * (s j * nth j p0 0) + (x1 - x0) / 2 * (s j * nth j p1 0)) +
                  s j * trapz (map (fun p => nth j p 0) (p1 :: P)) (x1 :: x))).
      2:{ intros j _. change (trapz (map (fun p => nth j p 0) (p0 :: p1 :: P)) (x0 :: x1 :: x)) with
            ((x1 - x0) * (nth j p0 0 + nth j p1 0) / 2 + trapz (map (fun p => nth j p 0) (p1 :: P)) (x1 :: x)). field. }
      rewrite rsum_map_plus, rsum_map_plus, !rsum_map_scal. lra.
Qed.

Lemma C73_ex nb zs A v I P :
  length v = nb -> length I = nb -> length P = length zs ->
  (forall row, In row A -> length row = nb) -> (forall p, In p P -> length p = nb) ->
  (forall j, (j < nb)%nat -> col_total A j * nth j v 0 <> 0 -> nth j I 0 <> 0) ->
  (forall j, (j < nb)%nat -> trapz (map (fun p => nth j p 0) P) zs = nth j I 0) ->
  exists prof, interface_profile (layer_sum A nb) v I P = map Some prof /\
    trapz prof zs = rsum (matvec A v).
Proof.
  intros Hv HI HP HA HPs Hne Hint.
  set (s := fun j => if Reqb (nth j I 0) 0 then 0 else col_total A j * nth j v 0 / nth j I 0).
  assert (HSc : prof_scale (layer_sum A nb) v I = map Some (map s (seq 0 nb))).
  { unfold prof_scale. apply list_ext with (d := Some 0).
    - rewrite !map2_length, !map_length. unfold layer_sum. rewrite map_length, seq_length. lia.
    - intros j Hj. rewrite !map2_length in Hj. unfold layer_sum in Hj. rewrite map_length, seq_length in Hj.
      rewrite map2_nth with (da := 0) (db := 0) by (rewrite ?map2_length; unfold layer_sum; rewrite ?map_length, ?seq_length; lia).
      rewrite map2_nth with (da := 0) (db := 0) by (unfold layer_sum; rewrite ?map_length, ?seq_length; lia).
      rewrite nth_map_lt with (da := 0) by (rewrite map_length, seq_length; lia).
      rewrite nth_map_lt with (da := 0%nat) by (rewrite seq_length; lia). rewrite nth_seq0 by lia.
      unfold layer_sum. rewrite nth_map_lt with (da := 0%nat) by (rewrite seq_length; lia). rewrite nth_seq0 by lia.
      fold (col_total A j). unfold s. destruct (Reqb (nth j I 0) 0) eqn:E; auto.
      apply Reqb_true in E. destruct (Reqb (col_total A j * nth j v 0) 0) eqn:E2; auto.
      apply Reqb_false in E2. exfalso. apply (Hne j); auto. lia. }
  exists (map (fun p => rsum (map (fun j => s j * nth j p 0) (seq 0 nb))) P). split.
  - unfold interface_profile. rewrite HSc. symmetry. eapply eq_trans; [apply map_map|]. symmetry. apply map_ext_in. intros p Hp.
    replace (map2 (fun s p => fmul s (Some p)) (map Some (map s (seq 0 nb))) p) with
      (map Some (map (fun j => s j * nth j p 0) (seq 0 nb))); [apply fsum_some|].
    specialize (HPs p Hp). apply list_ext with (d := Some 0).
    + rewrite map2_length, !map_length, seq_length. lia.
    + intros j Hj. rewrite !map_length, seq_length in Hj.
      rewrite map2_nth with (da := Some 0) (db := 0) by (rewrite ?map_length, ?seq_length; lia).
      rewrite !nth_map_lt with (da := 0) by (rewrite map_length, seq_length; lia).
      rewrite !nth_map_lt with (da := 0%nat) by (rewrite seq_length; lia). rewrite nth_seq0 by lia. auto.
  - rewrite trapz_sum by auto. rewrite (rsum_matvec A v (length A) nb) by (first [exact Hv | split; auto]).
    apply rsum_map_ext. intros j Hj. apply in_seq in Hj. rewrite Hint by lia. unfold s.
    destruct (Reqb (nth j I 0) 0) eqn:E.
    + apply Reqb_true in E. destruct (Req_dec (col_total A j * nth j v 0) 0) as [->|H]; [ring|].
      exfalso. apply (Hne j); auto. lia.
    + apply Reqb_false in E. field. auto.
Qed.
