From Coq Require Import Reals List ZArith Bool String Lia Lra.
From Verif Require Import Base Lib Model_Angles Proof_Angles Spec_Angles Proof_AnglesProps Model_Ideal Model_MatMul Model_TMM
  Model_Diff Spec_Diff Proof_Diff Spec_TMM Model_RT Proof_RT Proof_TMM Proof_TMM3 Proof_TMM4 Model_RCWA Spec_RCWA Proof_RCWA Proof_RCWA2.
Import ListNotations.
Local Notation length := List.length.
Open Scope R_scope.

(* ---------- C55 ---------- *)

Lemma pol_cases x : x <> ""%string -> String.length x <> 2%nat ->
  (x = "s" /\ process_pol (PolStr x) = Ok (PolPair 1 0))%string \/ (x = "p" /\ process_pol (PolStr x) = Ok (PolPair 0 1))%string \/
  (x = "u" /\ exists a, a ^ 2 + a ^ 2 = 1 /\ 0 < a /\ process_pol (PolStr x) = Ok (PolPair a a))%string \/
  (x <> "s" /\ x <> "p" /\ x <> "u" /\ process_pol (PolStr x) = Err ValueError)%string.
Proof.
  intros H0 H2. unfold process_pol, in_sp. destruct (Nat.eqb_spec (String.length x) 2); [contradiction|].
  destruct (String.eqb_spec x ""); [contradiction|].
  destruct (String.eqb_spec x "s") as [->|Hs]; [left; auto|].
  destruct (String.eqb_spec x "p") as [->|Hp]; [right; left; auto|].
  destruct (String.eqb_spec x "sp") as [->|Hsp]; [exfalso; apply n; reflexivity|].
  cbn [orb]. destruct (String.eqb_spec x "u") as [->|Hu].
  - right. right. left. split; auto. exists (sqrt 2 / 2). pose proof (sqrt_sqrt 2 ltac:(lra)). pose proof (sqrt_lt_R0 2 ltac:(lra)).
    split; [|split; [lra|auto]]. replace ((sqrt 2 / 2) ^ 2 + (sqrt 2 / 2) ^ 2) with (sqrt 2 * sqrt 2 / 2) by field. lra.
  - right. right. right. auto.
Qed.

(* ---------- C57 ---------- *)

Section Stack.
  Context {M G : Type}.
  Implicit Types l : list (glayer M G).
  Lemma stack_front l : rcwa_stack Front l = l.
  Proof. unfold rcwa_stack. induction l as [|[m w q] l IH]; cbn [map map2]; auto. f_equal. exact IH. Qed.

  Lemma stack_with (geos : list G) : forall l, length geos = length l ->
    map gl_geom (map2 (fun x geo => mk_glayer (gl_mat x) (gl_width x) geo) l geos) = geos /\
    (geos = map gl_geom l -> map2 (fun x geo => mk_glayer (gl_mat x) (gl_width x) geo) l geos = l).
  Proof.
    induction geos as [|q geos IH]; intros [|x l] H; simpl in H; try lia; [split; auto|]. cbn [map map2]. destruct (IH l ltac:(lia)) as [A B].
    split; [f_equal; auto|]. intros E. injection E as -> E. rewrite B by auto. destruct x. auto.
  Qed.

  Lemma stack_rear l : rcwa_stack Rear l = rev l <-> map gl_geom l = rev (map gl_geom l).
  Proof.
    unfold rcwa_stack. destruct (stack_with (map gl_geom l) (rev l)) as [A B]; [rewrite map_length, rev_length; auto|]. split; intros H.
    - rewrite H in A. rewrite map_rev in A. auto.
    - apply B. rewrite map_rev. auto.
  Qed.

  Lemma stack_materials s l : map (fun x => (gl_mat x, gl_width x)) (rcwa_stack s l) =
    match s with Front => map (fun x => (gl_mat x, gl_width x)) l | Rear => rev (map (fun x => (gl_mat x, gl_width x)) l) end.
  Proof.
    assert (H : forall (a : list (glayer M G)) (geos : list G), length geos = length a ->
      map (fun x => (gl_mat x, gl_width x)) (map2 (fun x geo => mk_glayer (gl_mat x) (gl_width x) geo) a geos) = map (fun x => (gl_mat x, gl_width x)) a).
    { induction a as [|x a IH]; intros [|q geos] HL; simpl in HL; try lia; auto. cbn [map map2 gl_mat gl_width]. f_equal. apply IH. lia. }
    unfold rcwa_stack. destruct s; rewrite H by (rewrite map_length, ?rev_length; auto); auto. apply map_rev.
  Qed.
End Stack.

(* ---------- C58 ---------- *)

Lemma rsum_telescope (P : nat -> R) : forall k a, rsum (map (fun i => P (i + a)%nat - P (i + S a)%nat) (seq 0 k)) = P a - P (k + a)%nat.
Proof.
  induction k as [|k IH]; intros a; [simpl; lra|]. rewrite seq_S, map_app, rsum_app, IH. cbn [map rsum plus].
  replace (k + S a)%nat with (S (k + a)) by lia. lra.
Qed.

Lemma rcwa_sum S n : (2 <= n)%nat -> 0 < fst (fx S 1) -> both (fx S 1) = both (fx S 2) -> snd (fx S n) = 0 ->
  let '(Rf, T, inc) := rcwa_rt S n in
  Rf + T + rsum (rcwa_absorption_per_layer S n inc) =
  1 + rsum (map (fun i => Rmax 0 (both (fx S (i + 3)) - both (fx S (i + 2)))) (seq 0 (n - 2))) / inc.
Proof.
  intros Hn Hi Hc Hb. unfold rcwa_rt, rcwa_absorption_per_layer.
  set (P := fun i => both (fx S i)). set (inc := fst (fx S 1)) in *.
  assert (E : rsum (map (fun i => (if Rltb 0 (both (fx S (i + 2)) - both (fx S (i + 3))) then both (fx S (i + 2)) - both (fx S (i + 3)) else 0) / inc) (seq 0 (n - 2)))
     = (P 2%nat - P n + rsum (map (fun i => Rmax 0 (both (fx S (i + 3)) - both (fx S (i + 2)))) (seq 0 (n - 2)))) / inc).
  { assert (T := rsum_telescope P (n - 2) 2). replace (n - 2 + 2)%nat with n in T by lia. rewrite <- T, <- rsum_map_plus.
    unfold Rdiv. rewrite Rmult_comm, <- rsum_map_scal. apply rsum_map_ext. intros i _. rewrite Rmult_comm. f_equal.
    unfold P, Rmax. destruct (Rltb 0 _) eqn:L; [apply Rltb_true in L|apply Rltb_false in L]; destruct (Rle_dec 0 _); lra. }
  etransitivity; [apply f_equal; exact E|]. unfold P. rewrite <- Hc. unfold both. rewrite Hb. fold inc. field. lra.
Qed.

Lemma rcwa_absorption_nonneg S n inc a : 0 < inc -> In a (rcwa_absorption_per_layer S n inc) -> 0 <= a.
Proof.
  intros Hi H. apply in_map_iff in H. destruct H as [i [<- _]]. cbv zeta. unfold Rdiv. apply Rmult_le_pos; [|apply Rlt_le, Rinv_0_lt_compat; auto].
  destruct (Rltb 0 _) eqn:L; [apply Rltb_true in L; lra|lra].
Qed.

(* ---------- C65, C102 ---------- *)

Lemma arange_4 : arange0 (rsum [3 / 2; 5 / 2]) 1 = map INR (seq 0 4).
Proof.
  unfold arange0. replace (Zceil (rsum [3 / 2; 5 / 2] / 1)) with 4%Z by (symmetry; apply Zceil_unique; simpl; lra).
  change (Z.to_nat 4) with 4%nat. apply map_ext. intros; ring.
Qed.

Ltac cmp := repeat match goal with
  | |- context [Rleb ?x ?y] => first [rewrite (proj2 (Rleb_true x y)) by lra | rewrite (proj2 (Rleb_false x y)) by lra]
  | |- context [Rltb ?x ?y] => first [rewrite (proj2 (Rltb_true x y)) by lra | rewrite (proj2 (Rltb_false x y)) by lra]
  end.

Lemma rcwa_points_differ : exists df dr, rcwa_dist Front [3 / 2; 5 / 2] 1 [1%nat] = Ok df /\ rcwa_dist Rear [3 / 2; 5 / 2] 1 [1%nat] = Ok dr /\
  length df = 2%nat /\ length dr = 1%nat.
Proof.
  unfold rcwa_dist, profile_depths. cbn [rev app map length Nat.add Nat.sub np_sort fold_right ins_nat].
  assert (E : rsum [5 / 2; 3 / 2] = rsum [3 / 2; 5 / 2]) by (simpl; lra). rewrite E, arange_4.
  rewrite !points_in_layer by (simpl; lia). do 2 eexists. split; [reflexivity|]. split; [reflexivity|].
  cbn [firstn Nat.sub rsum map seq]. cbn [INR]. split; cbn [filter]; cmp; reflexivity.
Qed.

Section Multiples.
  Variable d : R.
  Hypothesis Hd : 0 < d.
  Definition total (ks : list nat) : nat := list_sum ks.
  Definition lens (ks : list nat) : list R := map (fun k => INR k * d) ks.

  Lemma lens_sum ks : rsum (lens ks) = INR (total ks) * d.
  Proof.
    unfold total, lens. induction ks as [|k ks IH]; [simpl; ring|]. cbn [map rsum list_sum fold_right]. fold (list_sum ks).
    rewrite IH, plus_INR. ring.
  Qed.
  Lemma lens_firstn ks l : firstn l (lens ks) = lens (firstn l ks).
  Proof. unfold lens. apply firstn_map. Qed.

  Lemma arange_mult k : arange0 (INR k * d) d = map (fun i => INR i * d) (seq 0 k).
  Proof.
    unfold arange0. replace (Zceil (INR k * d / d)) with (Z.of_nat k); [rewrite Nat2Z.id; auto|].
    symmetry. apply Zceil_unique. replace (INR k * d / d) with (INR k) by (field; lra). rewrite <- INR_IZR_INZ. lra.
  Qed.

  Lemma filter_seq a b k : (a <= b <= k)%nat -> filter (fun i => (a <=? i)%nat && (i <? b)%nat)%bool (seq 0 k) = seq a (b - a).
  Proof.
    intros H. replace k with (a + ((b - a) + (k - b)))%nat by lia. rewrite !seq_app, !filter_app. cbn [plus].
    replace (a + (b - a))%nat with b by lia.
    assert (N : forall l, (forall x, In x l -> ((a <=? x)%nat && (x <? b)%nat)%bool = false) -> filter (fun i => (a <=? i)%nat && (i <? b)%nat)%bool l = []).
    { induction l as [|x l IH]; intros Hl; auto. cbn [filter]. rewrite (Hl x (or_introl eq_refl)). apply IH. intros; apply Hl; right; auto. }
    assert (Y : forall l, (forall x, In x l -> ((a <=? x)%nat && (x <? b)%nat)%bool = true) -> filter (fun i => (a <=? i)%nat && (i <? b)%nat)%bool l = l).
    { induction l as [|x l IH]; intros Hl; auto. cbn [filter]. rewrite (Hl x (or_introl eq_refl)). f_equal. apply IH. intros; apply Hl; right; auto. }
    rewrite (N (seq 0 a)), (Y (seq a (b - a))), (N (seq b (k - b))); [rewrite app_nil_r; auto| | |];
      intros x Hx; apply in_seq in Hx; destruct (Nat.leb_spec a x), (Nat.ltb_spec x b); auto; lia.
  Qed.

  Lemma mult_layer_length ks l : (1 <= l <= length ks)%nat ->
    exists z, depth_points (lens ks) (arange0 (rsum (lens ks)) d) [l] = Ok z /\ length z = nth (l - 1) ks 0%nat.
  Proof.
    intros Hl. eexists. split; [apply points_in_layer; unfold lens; rewrite map_length; auto|].
    rewrite lens_sum, arange_mult, !lens_firstn, !lens_sum. set (a := total (firstn (l - 1) ks)). set (b := total (firstn l ks)).
    assert (Eb : b = (a + nth (l - 1) ks 0)%nat).
    { unfold a, b, total. clear a b. revert l Hl. induction ks as [|k ks IH]; intros l Hl; [simpl in Hl; lia|]. destruct l as [|[|l]]; [lia|simpl; lia|].
      specialize (IH (S l)). simpl in Hl. specialize (IH ltac:(lia)). cbn [Nat.sub firstn nth list_sum fold_right] in *. rewrite Nat.sub_0_r in IH. fold (list_sum (firstn l ks)) in *.
      destruct ks as [|k2 ks]; [simpl in Hl; lia|]. cbn [firstn list_sum fold_right] in *. lia. }
    assert (Hbt : (b <= total ks)%nat).
    { unfold b, total. rewrite <- (firstn_skipn l ks) at 2. rewrite list_sum_app. lia. }
    assert (F : forall L, filter (fun x => (Rleb (INR a * d) x && Rltb x (INR b * d))%bool) (map (fun i => INR i * d) L) =
                map (fun i => INR i * d) (filter (fun i => (a <=? i)%nat && (i <? b)%nat)%bool L)).
    { induction L as [|i L IH]; auto. cbn [map filter].
      replace (Rleb (INR a * d) (INR i * d)) with (a <=? i)%nat.
      - replace (Rltb (INR i * d) (INR b * d)) with (i <? b)%nat.
        + destruct ((a <=? i)%nat && (i <? b)%nat)%bool; cbn [map]; rewrite IH; auto.
        + destruct (Nat.ltb_spec i b); symmetry; [apply Rltb_true; apply lt_INR in H; nra|apply Rltb_false; apply le_INR in H; nra].
      - destruct (Nat.leb_spec a i); symmetry; [apply Rleb_true; apply le_INR in H; nra|apply Rleb_false; apply lt_INR in H; nra]. }
    rewrite F, map_length, filter_seq by lia. rewrite seq_length. lia.
  Qed.

  Lemma mult_layers_length ks : forall ls, Forall (fun l => 1 <= l <= length ks)%nat ls ->
    exists z, profile_depths (lens ks) d ls = Ok z /\ length z = list_sum (map (fun l => nth (l - 1) ks 0%nat) ls).
  Proof.
    unfold profile_depths. induction ls as [|l ls IH]; intros Hls; [exists []; auto|]. apply Forall_cons_iff in Hls as [Hl Hls].
    destruct (IH Hls) as (z & E & L). destruct (mult_layer_length ks l Hl) as (z0 & E0 & L0). cbn [depth_points] in *.
    destruct (py_index (layer_start (lens ks)) (Z.of_nat l)) as [a|]; cbn [rbind] in *; [|discriminate].
    destruct (py_index (layer_end (lens ks)) (Z.of_nat l)) as [b|]; cbn [rbind] in *; [|discriminate].
    rewrite E. cbn [rbind]. injection E0 as E0. rewrite app_nil_r in E0. rewrite E0. exists (z0 ++ z). split; auto.
    rewrite app_length, L, L0. reflexivity.
  Qed.

  Lemma ins_sum (f : nat -> nat) x l : list_sum (map f (ins_nat x l)) = (f x + list_sum (map f l))%nat.
  Proof. induction l as [|y l IH]; cbn [ins_nat]; [reflexivity|]. destruct (Nat.leb x y); [reflexivity|]. cbn [map list_sum fold_right]. fold (list_sum (map f (ins_nat x l))). rewrite IH. fold (list_sum (map f l)). lia. Qed.
  Lemma sort_sum (f : nat -> nat) l : list_sum (map f (np_sort l)) = list_sum (map f l).
  Proof. unfold np_sort. induction l as [|x l IH]; auto. cbn [fold_right]. rewrite ins_sum, IH. reflexivity. Qed.
  Lemma ins_in x l y : In y (ins_nat x l) <-> y = x \/ In y l.
  Proof. induction l as [|z l IH]; cbn [ins_nat]; [simpl; intuition|]. destruct (Nat.leb x z); simpl; [intuition|rewrite IH; intuition]. Qed.
  Lemma sort_in l y : In y (np_sort l) <-> In y l.
  Proof. unfold np_sort. induction l as [|x l IH]; [tauto|]. cbn [fold_right]. rewrite ins_in, IH. simpl. intuition. Qed.

  Lemma rcwa_points_multiples ks ls : Forall (fun l => 1 <= l <= length ks)%nat ls ->
    exists df dr, rcwa_dist Front (lens ks) d ls = Ok df /\ rcwa_dist Rear (lens ks) d ls = Ok dr /\ length df = length dr /\
      length df = list_sum (map (fun l => nth (l - 1) ks 0%nat) ls).
  Proof.
    intros Hls. destruct (mult_layers_length ks ls Hls) as (df & E1 & L1). unfold rcwa_dist.
    assert (Er : rev (lens ks) = lens (rev ks)) by (unfold lens; rewrite map_rev; auto).
    set (ls' := np_sort (map (fun l => (length (lens ks) + 1 - l)%nat) ls)).
    assert (Ll : length (lens ks) = length ks) by (unfold lens; apply map_length).
    destruct (mult_layers_length (rev ks) ls') as (dr & E2 & L2).
    { apply Forall_forall. intros y Hy. unfold ls' in Hy. apply (sort_in (map _ ls)) in Hy. apply in_map_iff in Hy. destruct Hy as [l [<- Hl]].
      rewrite Forall_forall in Hls. specialize (Hls l Hl). rewrite rev_length, Ll. lia. }
    exists df, dr. split; auto. split; [rewrite Er; auto|]. split; auto. rewrite L1, L2. unfold ls'. rewrite sort_sum, map_map. f_equal.
    apply map_ext_in. intros l Hl. rewrite Forall_forall in Hls. specialize (Hls l Hl). rewrite Ll. rewrite rev_nth by lia. f_equal. lia.
  Qed.
End Multiples.

Lemma rcwa_profile_front widths spacing layers prof A d : profile_depths widths spacing layers = Ok d -> 0 < rsum A ->
  exists z data, rcwa_profile Front widths spacing layers prof A = Ok (z, data) /\ z = d /\ length data = length d /\
    forall j, (j < length d)%nat -> nth j data 0 = Rmax 0 (prof (nth j d 0)).
Proof.
  intros Hd HA. unfold rcwa_profile, rcwa_dist. rewrite Hd. cbn [rbind]. replace (Rltb 0 (rsum A)) with true by (symmetry; apply Rltb_true; auto).
  do 2 eexists. split; [reflexivity|]. split; auto. cbn [flip_rear]. rewrite !map_length. split; auto. intros j Hj.
  rewrite nth_map_lt with (da := 0) by (rewrite map_length; auto). rewrite nth_map_lt with (da := 0) by auto. apply clip_max.
Qed.

Lemma rcwa_rear_labels widths spacing layers prof A d : rcwa_dist Rear widths spacing layers = Ok d -> 0 < rsum A ->
  exists z data, rcwa_profile Rear widths spacing layers prof A = Ok (z, data) /\ z = d /\ length data = length d /\
    forall j, (j < length d)%nat -> nth j data 0 = Rmax 0 (prof (nth (length d - 1 - j) d 0)).
Proof.
  intros Hd HA. unfold rcwa_profile. rewrite Hd. cbn [rbind]. replace (Rltb 0 (rsum A)) with true by (symmetry; apply Rltb_true; auto).
  do 2 eexists. split; [reflexivity|]. split; auto. cbn [flip_rear]. rewrite map_length, rev_length, map_length. split; auto. intros j Hj.
  rewrite nth_map_lt with (da := 0) by (rewrite rev_length, map_length; auto). rewrite rev_nth by (rewrite map_length; auto).
  rewrite map_length. rewrite nth_map_lt with (da := 0) by lia. rewrite clip_max. do 3 f_equal. lia.
Qed.

Lemma rcwa_rear_z_wrong : exists z data, rcwa_profile Rear [8; 22] 4 [1%nat] (fun x => x) [1] = Ok (z, data) /\ z = [24; 28] /\ data = [28; 24].
Proof.
  assert (E : rcwa_dist Rear [8; 22] 4 [1%nat] = Ok [24; 28]).
  { unfold rcwa_dist, profile_depths. cbn [rev app map length Nat.add Nat.sub np_sort fold_right ins_nat].
    assert (E : arange0 (rsum [22; 8]) 4 = [0; 4; 8; 12; 16; 20; 24; 28]).
    { unfold arange0. replace (Zceil (rsum [22; 8] / 4)) with 8%Z by (symmetry; apply Zceil_unique; simpl; lra).
      change (Z.to_nat 8) with 8%nat. cbn [seq map INR]. repeat (apply f_equal2; [lra|]). reflexivity. }
    rewrite E. rewrite points_in_layer by (simpl; lia). cbn [firstn Nat.sub rsum filter]. cmp. reflexivity. }
  unfold rcwa_profile. rewrite E. cbn [rbind rsum]. cmp. do 2 eexists. split; [reflexivity|]. split; auto. cbn [flip_rear map rev app].
  rewrite !clip_max, !Rmax_right by lra. auto.
Qed.

(* ---------- C101 ---------- *)

Section Flat.
  Variables (n : nat) (phi_sym c : R) (sp : spacing) (g : grid) (h : nat).
  Hypothesis Hv : valid_request n phi_sym c.
  Hypothesis Hg : make_angle_vector n phi_sym c sp = Ok g.
  Hypothesis Hh : length (g_av g) = (2 * h)%nat.
  Hypothesis Hphi : 1 / 10 ^ 10 <= phi_sym.
  Variables (i : nat) (r : arow).
  Hypothesis Hi : (i < h)%nat.
  Hypothesis Hr : nth_error (g_av g) i = Some r.

  Lemma row_angles : 0 < a_theta r < PI / 2 /\ 0 < a_phi r < phi_sym.
  Proof.
    split.
    - destruct (C01_rows _ _ _ _ _ Hv Hg) as [[h' [L Hrow]] _]. assert (h' = h) by lia. subst h'. apply (Hrow _ _ Hr). auto.
    - pose proof Hv as [Hn [Hc Hs]]. pose proof (Hgeq _ _ _ _ _ Hg) as Hgq.
      assert (Hk' : (i < length (g_av g))%nat) by lia. rewrite Hgq in Hk'.
      destruct (av_decompose sp n phi_sym c Hn Hc i Hk') as [q [j [Hq [Hj E]]]].
      pose proof (av_row sp n phi_sym c Hn Hc q j Hq Hj) as Er. rewrite E, Hgq in Hr. apply nth_error_nth with (d := default_row) in Hr.
      rewrite Er in Hr. rewrite <- Hr. cbn [a_phi]. pose proof (phi_mid_inside n phi_sym c Hn Hc Hs q j Hq) as [A B].
      assert (HK : 0 < INR (ring_count n c q)) by (apply lt_0_INR; lia). assert (HD : 0 < phi_sym / INR (ring_count n c q)) by (apply Rdiv_lt_0_compat; auto).
      unfold phi_edge in A, B. pose proof (pos_INR j). apply le_INR in Hj.
      assert (INR (S j) * (phi_sym / INR (ring_count n c q)) <= phi_sym).
      { replace phi_sym with (INR (ring_count n c q) * (phi_sym / INR (ring_count n c q))) at 2 by (field; lra). apply Rmult_le_compat_r; lra. }
      nra.
  Qed.

  Variables (wl n_in n_out : R) (g1 g2 : v2).
  Hypothesis Hwl : 0 < wl.
  Hypothesis Hni : 0 < n_in.
  Hypothesis Hno : 0 < n_out.
  Let f := f_inc wl n_in (a_theta r) (a_phi r).

  Lemma f_length : length2 f = n_in / wl * sin (a_theta r) /\ 0 < length2 f < n_in / wl.
  Proof.
    pose proof PI_RGT_0. destruct row_angles as [Ht Hp]. assert (HK : 0 < n_in / wl) by (apply Rdiv_lt_0_compat; auto).
    assert (0 < sin (a_theta r) < 1). { split; [apply sin_gt_0; lra|]. rewrite <- sin_PI2. apply sin_increasing_1; lra. }
    assert (E : length2 f = n_in / wl * sin (a_theta r)) by (apply f_inc_length; auto; lra). rewrite E. split; auto. nra.
  Qed.

  Lemma f_points : points_at f (a_phi r).
  Proof.
    destruct f_length as [E [L1 L2]]. split.
    - intros H. rewrite H in L1. unfold length2 in L1. cbn [fst snd] in L1. replace (0 ^ 2 + 0 ^ 2) with 0 in L1 by ring. rewrite sqrt_0 in L1. lra.
    - rewrite E. unfold f, f_inc. cbn [fst snd]. auto.
  Qed.

  Let d := order_direction wl n_in n_out (a_theta r) (a_phi r) phi_sym g1 g2 (0, 0)%Z.
  Lemma d_r_flat : d_r d = a_theta r.
  Proof. pose proof PI_RGT_0. destruct row_angles as [Ht _]. apply (zero_order wl n_in n_out (a_theta r) (a_phi r) phi_sym g1 g2); auto; lra. Qed.

  Lemma d_t_flat psi : refracts n_in n_out (a_theta r) psi -> n_in * sin (a_theta r) < n_out -> d_t d = PI - psi.
  Proof.
    intros [P1 P2] Hlt. pose proof PI_RGT_0. destruct row_angles as [Ht _].
    destruct (zero_order wl n_in n_out (a_theta r) (a_phi r) phi_sym g1 g2 Hni Hno Hwl ltac:(lra)) as [_ Z]. specialize (Z Hlt). fold d in Z.
    assert (Hf : length2 f < n_out / wl).
    { destruct f_length as [E _]. rewrite E. unfold Rdiv. apply (Rmult_lt_reg_r wl); auto. replace (n_in * / wl * sin (a_theta r) * wl) with (n_in * sin (a_theta r)) by (field; lra).
      rewrite Rmult_assoc, Rinv_l; lra. }
    assert (D : PI / 2 < d_t d <= PI).
    { unfold d, order_direction. cbn [d_t]. rewrite zero_order_f. fold f. destruct (polar_spec n_out wl f Hno Hwl) as [P _]. destruct (P Hf) as [P3 _]. lra. }
    assert (S1 : sin (d_t d) = sin psi) by (apply (Rmult_eq_reg_l n_out); lra).
    assert (psi < PI / 2).
    { destruct (Rle_lt_or_eq_dec psi (PI / 2) ltac:(lra)) as [|E]; auto. rewrite E in P2. rewrite sin_PI2 in P2. lra. }
    rewrite <- (sin_PI_x (d_t d)) in S1. 
    assert (PI - d_t d = psi); [|lra].
    destruct (Rtotal_order (PI - d_t d) psi) as [L|[L|L]]; auto; exfalso; [assert (sin (PI - d_t d) < sin psi)|assert (sin psi < sin (PI - d_t d))];
      try lra; apply sin_increasing_1; lra.
  Qed.

  Lemma nudge_pos x : 0 < x -> nudge x = x.
  Proof. intros H. unfold nudge, Reqb. destruct (Req_EM_T x 0); auto; lra. Qed.

  (* the azimuth RCWA gives the zero order and the one TMM gives the specular beam *)
  Lemma d_phi_half (k : Z) : IZR k * phi_sym = PI -> d_phi d = a_phi r /\ forall q, turned (a_phi r) phi_sym q -> q = a_phi r.
  Proof.
    intros Hk. pose proof Hv as [_ [_ Hs]]. destruct row_angles as [_ Hp]. split.
    - destruct (order_azimuth wl n_in n_out (a_theta r) (a_phi r) phi_sym g1 g2 (0, 0)%Z (a_phi r) k Hs Hk) as [A [j B]].
      { unfold order_direction. cbn [d_f]. rewrite zero_order_f. apply f_points. }
      fold d in A, B. rewrite B in A. assert (j = 0)%Z.
      { assert (IZR j * phi_sym < 1 * phi_sym) as U by lra. apply Rmult_lt_reg_r in U; auto. apply lt_IZR in U.
        assert (-1 * phi_sym < IZR j * phi_sym) as V by lra. apply Rmult_lt_reg_r in V; auto. apply (lt_IZR (-1)) in V. lia. }
      subst j. rewrite B. ring.
    - intros q Hq. assert (E : fold_phi (a_phi r + PI) phi_sym = a_phi r).
      { apply fold_phi_unique with (m := (2 * k)%Z) (k := k); auto; [rewrite mult_IZR, Rmult_assoc, Hk; ring|lra|rewrite Hk; ring]. }
      unfold turned in Hq. rewrite E in Hq. destruct Hq as [[_ ->]|[H _]]; auto. lra.
  Qed.

  Lemma d_phi_full : phi_sym = 2 * PI -> a_phi r < PI / 2 -> d_phi d = a_phi r /\ forall q, turned (a_phi r) phi_sym q -> q = a_phi r + PI.
  Proof.
    intros Hk Hlt. pose proof PI_RGT_0. pose proof Hv as [_ [_ Hs]]. destruct row_angles as [_ Hp]. split.
    - unfold d, order_direction. cbn [d_phi]. rewrite zero_order_f. unfold f_inc. cbn [fst snd].
      destruct f_length as [E [L1 L2]]. rewrite E in L1. assert (0 < cos (a_phi r)) by (apply cos_gt_0; lra).
      replace (arctan_div (n_in / wl * sin (a_theta r) * sin (a_phi r)) (n_in / wl * sin (a_theta r) * cos (a_phi r))) with (a_phi r).
      + apply fold_phi_unique with (m := 1%Z) (k := 0%Z); auto; try lra.
      + unfold arctan_div, Reqb. destruct (Req_EM_T (n_in / wl * sin (a_theta r) * cos (a_phi r)) 0) as [Z|Z]; [nra|].
        replace (n_in / wl * sin (a_theta r) * sin (a_phi r) / (n_in / wl * sin (a_theta r) * cos (a_phi r))) with (tan (a_phi r)).
        * symmetry. apply atan_tan. lra.
        * unfold tan. field. assert (sin (a_theta r) <> 0) by (intros Q; rewrite Q, Rmult_0_r in L1; lra). lra.
    - intros q Hq. assert (E : fold_phi (a_phi r + PI) phi_sym = a_phi r + PI).
      { apply fold_phi_unique with (m := 1%Z) (k := 0%Z); auto; lra. }
      unfold turned in Hq. rewrite E in Hq. destruct Hq as [[_ ->]|[H0 _]]; auto. lra.
  Qed.

  (* bins of the zero order when it keeps the azimuth *)
  Lemma zero_bin_r : d_phi d = a_phi r -> bin_r phi_sym g wl n_in n_out g1 g2 Front (a_theta r) (a_phi r) (0, 0)%Z = i.
  Proof.
    intros E. unfold bin_r. fold d. cbn [turn_theta]. rewrite d_r_flat, E. unfold ordbin. destruct row_angles as [Ht Hp].
    rewrite !nudge_pos by lra. rewrite (C03_center n phi_sym c sp g Hv Hg i r Hr). apply Nat2Z.id.
  Qed.
  Lemma zero_bin_t psi kt : d_phi d = a_phi r -> refracts n_in n_out (a_theta r) psi -> n_in * sin (a_theta r) < n_out ->
    bin_contains g kt (PI - psi) (a_phi r) -> bin_t phi_sym g wl n_in n_out g1 g2 Front (a_theta r) (a_phi r) (0, 0)%Z = kt.
  Proof.
    intros E Hpsi Hlt Hkt. unfold bin_t. fold d. cbn [turn_theta]. rewrite (d_t_flat psi Hpsi Hlt), E. unfold ordbin. destruct row_angles as [Ht Hp].
    pose proof PI_RGT_0. destruct Hpsi as [P1 P2]. rewrite !nudge_pos by lra.
    destruct (C03_unique n phi_sym c sp g Hv Hg (PI - psi) (a_phi r)) as (k & B & _ & _ & U); try lra. rewrite B, Nat2Z.id. symmetry. apply U. auto.
  Qed.

  (* the RCWA column of a flat structure *)
  Lemma flat_column n_layers solve Rp Tp Al : 1 / 10 ^ 16 <= Rp -> 1 / 10 ^ 16 <= Tp -> n_in * sin (a_theta r) < n_out ->
    solve (a_theta r) (a_phi r) = mk_rout Tp Al [Rp] [Tp] -> Rp + Tp + rsum Al = 1 ->
    exists cols A col, rcwa_matrix Front g wl n_in n_out phi_sym [(0, 0)%Z] g1 g2 n_layers solve = Ok (cols, A) /\ 
      nth i A [] = Al /\ nth i cols [] = map Some col /\ length col = (2 * h)%nat /\
      forall b, (b < 2 * h)%nat -> nth b col 0 =
        (if Nat.eqb (bin_r phi_sym g wl n_in n_out g1 g2 Front (a_theta r) (a_phi r) (0, 0)%Z) b then Rp else 0) +
        (if Nat.eqb (bin_t phi_sym g wl n_in n_out g1 g2 Front (a_theta r) (a_phi r) (0, 0)%Z) b then Tp else 0).
  Proof.
    intros HR HT Hlt Hsol Hsum. pose proof tiny_pos.
    assert (Hpos : 0 < 1 / 10 ^ 16) by (apply Rdiv_lt_0_compat; [lra|apply pow_lt; lra]).
    destruct (matrix_total n phi_sym c sp g h Hv Hg Hh Hphi wl n_in n_out g1 g2 Front [(0, 0)%Z] n_layers solve Hwl Hni Hno) as (cols & A & E & _ & _ & _ & HA).
    destruct (matrix_same n phi_sym c sp g h Hv Hg Hh Hphi wl n_in n_out g1 g2 Front [(0, 0)%Z] n_layers solve Hwl Hni Hno ltac:(auto)) as (cols' & A' & E' & HC).
    rewrite E in E'. injection E' as <- <-. exists cols, A.
    specialize (HA i r Hi Hr). cbn [incoming flip_rear] in HA. specialize (HC i r Hi Hr). cbn [incoming] in HC. rewrite Hsol in HA, HC.
    assert (Ff : d_f d = f) by (unfold d, order_direction; cbn [d_f]; apply zero_order_f).
    destruct f_length as [Lf [Lf1 Lf2]].
    assert (Lo : length2 f < n_out / wl).
    { rewrite Lf. apply (Rmult_lt_reg_r wl); auto. replace (n_in / wl * sin (a_theta r) * wl) with (n_in * sin (a_theta r)) by (field; lra).
      unfold Rdiv. rewrite Rmult_assoc, Rinv_l; lra. }
    assert (KR : kept_R phi_sym wl n_in n_out g1 g2 (a_theta r) (a_phi r) [(0, 0)%Z] (mk_rout Tp Al [Rp] [Tp]) = [Rp]).
    { unfold kept_R. cbn [q_Rp map2]. fold d. rewrite Ff. unfold kept_power. destruct (Rlt_dec _ _); [|lra]. destruct (Rle_dec _ _); [auto|lra]. }
    assert (KT : kept_T phi_sym wl n_in n_out g1 g2 (a_theta r) (a_phi r) [(0, 0)%Z] (mk_rout Tp Al [Rp] [Tp]) = [Tp]).
    { unfold kept_T. cbn [q_Tp map2]. fold d. rewrite Ff. unfold kept_power. destruct (Rlt_dec _ _); [|lra]. destruct (Rle_dec _ _); [auto|lra]. }
    destruct (column_ok n phi_sym c sp g h Hv Hg Hh Hphi wl n_in n_out g1 g2 Front Hwl Hni Hno (a_theta r) (a_phi r) [(0, 0)%Z] (mk_rout Tp Al [Rp] [Tp]))
      as (col & C1 & C2 & C3 & _); auto. { rewrite KR. cbn [rsum]. lra. }
    exists col. split; auto. split; auto. split; [rewrite HC; auto|]. split; auto. intros b Hb. rewrite C3 by auto. rewrite KR, KT.
    unfold group_sum. cbn [map length seq rsum nth q_T q_A]. replace (1 - Tp - rsum Al) with Rp by lra.
    destruct (Nat.eqb _ b), (Nat.eqb _ b); field; lra.
  Qed.
End Flat.

Lemma flat_agree : forall n phi_sym c sp g h M (SV : solver M) mem idx a i r Rp Tp Al wl g1 g2 n_layers solve (k : Z),
  valid_request n phi_sym c -> make_angle_vector n phi_sym c sp = Ok g -> length (g_av g) = (2 * h)%nat -> 1 / 10 ^ 10 <= phi_sym ->
  IZR k * phi_sym = PI -> (i < h)%nat -> nth_error (g_av g) i = Some r ->
  let n1 := idx (fst (snell_media a Front)) in let n2 := idx (snd (snell_media a Front)) in
  0 < n1 -> 0 < n2 -> 0 < wl -> tmm_entry SV mem a Front (a_theta r) = Ok (Rp, Tp, Al) -> n1 * sin (a_theta r) < n2 ->
  1 / 10 ^ 16 <= Rp -> 1 / 10 ^ 16 <= Tp -> Rp + Tp + rsum Al = 1 -> solve (a_theta r) (a_phi r) = mk_rout Tp Al [Rp] [Tp] ->
  exists col cols A, tmm_matrix_column SV mem idx a Front g phi_sym i = Ok (col, Al) /\
    rcwa_matrix Front g wl n1 n2 phi_sym [(0, 0)%Z] g1 g2 n_layers solve = Ok (cols, A) /\
    nth i cols [] = map Some col /\ nth i A [] = Al.
Proof.
  intros n phi_sym c sp g h M SV mem idx a i r Rp Tp Al wl g1 g2 nl solve k Hv Hg Hh Hphi Hk Hi Hr n1 n2 H1 H2 Hwl He Hlt HR HT HS Hsol.
  destruct (column_below n phi_sym c sp g h Hv Hg Hh Hphi M SV mem idx a Front i r Rp Tp Al H1 H2 Hi Hr He Hlt)
    as (col & q & psi & kr & kt & C1 & C2 & C3 & C4 & C5 & C6 & C7 & C8 & C9 & C10).
  destruct (d_phi_half n phi_sym c sp g h Hv Hg Hh i r Hi Hr wl n1 n2 g1 g2 Hwl H1 k Hk) as [D1 D2].
  rewrite (D2 q C3) in *. cbn [onward incoming] in *.
  destruct (flat_column n phi_sym c sp g h Hv Hg Hh Hphi i r Hi Hr wl n1 n2 g1 g2 Hwl H1 H2 nl solve Rp Tp Al HR HT Hlt Hsol HS)
    as (cols & A & col' & E & EA & EC & L & HC).
  exists col, cols, A. split; auto. split; auto. split; auto. rewrite EC. f_equal. apply list_ext with (d := 0); [lia|]. intros b Hb. rewrite HC by lia.
  rewrite (zero_bin_r n phi_sym c sp g h Hv Hg Hh i r Hi Hr wl n1 n2 g1 g2 Hwl H1 H2 D1).
  rewrite (zero_bin_t n phi_sym c sp g h Hv Hg Hh i r Hi Hr wl n1 n2 g1 g2 Hwl H1 H2 psi kt D1 C4 Hlt C7).
  assert (kr = i) as ->.
  { destruct (row_angles n phi_sym c sp g h Hv Hg Hh i r Hi Hr) as [Ht Hp]. pose proof PI_RGT_0.
    destruct (C03_unique n phi_sym c sp g Hv Hg (a_theta r) (a_phi r)) as (k' & B & _ & _ & U); try lra.
    rewrite (C03_center n phi_sym c sp g Hv Hg i r Hr) in B. injection B as B. apply Nat2Z.inj in B. subst k'. apply U. auto. }
  destruct C9 as [C9 C9']. rewrite C9'. rewrite (Nat.eqb_sym i b), (Nat.eqb_sym kt b).
  destruct (Nat.eqb_spec b i), (Nat.eqb_spec b kt); subst; try lra. contradiction.
Qed.

Lemma flat_disagree : forall n phi_sym c sp g h M (SV : solver M) mem idx a i r i' r' Rp Tp Al wl g1 g2 n_layers solve,
  valid_request n phi_sym c -> make_angle_vector n phi_sym c sp = Ok g -> length (g_av g) = (2 * h)%nat ->
  phi_sym = 2 * PI -> (i < h)%nat -> nth_error (g_av g) i = Some r -> nth_error (g_av g) i' = Some r' -> 
  a_theta r' = a_theta r -> a_phi r' = a_phi r + PI -> a_phi r < PI / 2 ->
  let n1 := idx (fst (snell_media a Front)) in let n2 := idx (snd (snell_media a Front)) in
  0 < n1 -> 0 < n2 -> 0 < wl -> tmm_entry SV mem a Front (a_theta r) = Ok (Rp, Tp, Al) -> n1 * sin (a_theta r) < n2 ->
  1 / 10 ^ 16 <= Rp -> 1 / 10 ^ 16 <= Tp -> Rp + Tp + rsum Al = 1 -> solve (a_theta r) (a_phi r) = mk_rout Tp Al [Rp] [Tp] ->
  exists col cols A col', tmm_matrix_column SV mem idx a Front g phi_sym i = Ok (col, Al) /\
    rcwa_matrix Front g wl n1 n2 phi_sym [(0, 0)%Z] g1 g2 n_layers solve = Ok (cols, A) /\
    nth i cols [] = map Some col' /\ nth i' col 0 = Rp /\ nth i col 0 = 0 /\ nth i col' 0 = Rp /\ nth i' col' 0 = 0.
Proof.
  intros n phi_sym c sp g h M SV mem idx a i r i' r' Rp Tp Al wl g1 g2 nl solve Hv Hg Hh Hk Hi Hr Hr' Ht' Hp' Hlow n1 n2 H1 H2 Hwl He Hlt HR HT HS Hsol.
  pose proof PI_RGT_0 as HPI. pose proof tiny_small. pose proof PI2_1.
  assert (Hphi : 1 / 10 ^ 10 <= phi_sym) by lra.
  assert (Hpos : 0 < 1 / 10 ^ 16) by (apply Rdiv_lt_0_compat; [lra|apply pow_lt; lra]).
  destruct (row_angles n phi_sym c sp g h Hv Hg Hh i r Hi Hr) as [Ht Hp].
  destruct (column_below n phi_sym c sp g h Hv Hg Hh Hphi M SV mem idx a Front i r Rp Tp Al H1 H2 Hi Hr He Hlt)
    as (col & q & psi & kr & kt & C1 & C2 & C3 & C4 & C5 & C6 & C7 & C8 & C9 & C10).
  destruct (d_phi_full n phi_sym c sp g h Hv Hg Hh Hphi i r Hi Hr wl n1 n2 g1 g2 Hwl H1 Hk Hlow) as [D1 D2].
  rewrite (D2 q C3) in *. cbn [onward incoming] in *.
  destruct (flat_column n phi_sym c sp g h Hv Hg Hh Hphi i r Hi Hr wl n1 n2 g1 g2 Hwl H1 H2 nl solve Rp Tp Al HR HT Hlt Hsol HS)
    as (cols & A & col' & E & EA & EC & L & HC).
  exists col, cols, A, col'. split; auto. split; auto. split; auto.
  assert (kr = i') as ->.
  { destruct (C03_unique n phi_sym c sp g Hv Hg (a_theta r) (a_phi r + PI)) as (k' & B & _ & _ & U); try lra.
    rewrite <- Ht', <- Hp' in B. rewrite (C03_center n phi_sym c sp g Hv Hg i' r' Hr') in B. injection B as B. apply Nat2Z.inj in B. subst k'. apply U. auto. }
  assert (Hne : i <> i') by (intros ->; rewrite Hr in Hr'; injection Hr' as ->; lra).
  destruct C9 as [C9 C9']. cbn [same_half other_half] in *. rewrite !C9', Nat.eqb_refl.
  assert (Hi2 : (i' < 2 * h)%nat) by lia. rewrite !HC by lia.
  rewrite (zero_bin_r n phi_sym c sp g h Hv Hg Hh i r Hi Hr wl n1 n2 g1 g2 Hwl H1 H2 D1). rewrite Nat.eqb_refl.
  set (bt := bin_t phi_sym g wl n1 n2 g1 g2 Front (a_theta r) (a_phi r) (0, 0)%Z).
  assert (Hbt : (h <= bt)%nat).
  { destruct (place_t n phi_sym c sp g h Hv Hg Hh Hphi wl n1 n2 g1 g2 Front Hwl H2 (a_theta r) (a_phi r) (0, 0)%Z) as (th & _ & _ & O); [|apply O].
    unfold order_direction. cbn [d_f]. rewrite zero_order_f.
    destruct (f_length n phi_sym c sp g h Hv Hg Hh i r Hi Hr wl n1 Hwl H1) as [-> _].
    apply (Rmult_lt_reg_r wl); auto. replace (n1 / wl * sin (a_theta r) * wl) with (n1 * sin (a_theta r)) by (field; lra).
    unfold Rdiv. rewrite Rmult_assoc, Rinv_l; lra. }
  destruct (Nat.eqb_spec i i'); [contradiction|]. destruct (Nat.eqb_spec i kt); [lia|]. destruct (Nat.eqb_spec bt i); [lia|]. destruct (Nat.eqb_spec bt i'); [lia|].
  repeat split; lra.
Qed.

(* ---------- grids for the examples ---------- *)

Lemma a_grid n phi_sym c : valid_request n phi_sym c -> exists g h, make_angle_vector n phi_sym c SpSin = Ok g /\ length (g_av g) = (2 * h)%nat /\
  (0 < h)%nat /\ (ring_count n c 0 <= h)%nat /\ forall j, (j < ring_count n c 0)%nat ->
    exists r, nth_error (g_av g) j = Some r /\ a_theta r = theta_mid SpSin n 0 /\ a_phi r = (INR j + 1 / 2) * (phi_sym / INR (ring_count n c 0)).
Proof.
  intros Hv. pose proof Hv as [Hn [Hc Hs]].
  destruct (make_angle_vector n phi_sym c SpSin) as [g|] eqn:Hg; [|discriminate].
  destruct (C01_rows _ _ _ _ _ Hv Hg) as [[h [L Hrow]] _]. exists g, h. split; auto. split; auto.
  pose proof (h_off n phi_sym c SpSin g h Hv Hg L) as Ho. pose proof (ring_count_pos n c Hn Hc 0 ltac:(lia)) as K0.
  pose proof (off_le n c Hn 1 n Hn) as Hl. rewrite off_S in Hl by auto. assert (O0 : off n c 0 = 0%nat) by reflexivity.
  split; [lia|]. split; [lia|]. intros j Hj. pose proof (Hgeq _ _ _ _ _ Hg) as Hgq.
  pose proof (av_row SpSin n phi_sym c Hn Hc 0 j ltac:(lia) Hj) as Er. rewrite O0 in Er. cbn [plus] in Er.
  eexists. split; [rewrite (nth_error_nth' _ default_row) by lia; rewrite Hgq, Er; reflexivity|]. cbn [a_theta a_phi]. split; auto.
  unfold phi_mid, phi_edge. rewrite S_INR. field. apply not_0_INR. lia.
Qed.

Lemma ring_count_4 : ring_count 1 4 0 = 4%nat.
Proof. unfold ring_count. replace (Zceil (4 * INR (if (0 <? 1)%nat then 0 + 1 else 2 * 1 - 0))) with 4%Z; auto. symmetry. apply Zceil_unique. simpl. lra. Qed.
Lemma ring_count_1 n : (1 <= n)%nat -> ring_count n 1 0 = 1%nat.
Proof.
  intros Hn. unfold ring_count. destruct (Nat.ltb_spec 0 n); [|lia].
  replace (Zceil (1 * INR (0 + 1))) with 1%Z; auto. symmetry. apply Zceil_unique. simpl. lra.
Qed.
