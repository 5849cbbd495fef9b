From Coq Require Import Reals List ZArith Bool Lia Lra Sorting.Sorted.
From Verif Require Import Base Lib Model_Ideal Model_TMM Proof_TMM3 Model_Absorb Model_RTProfile Spec_Absorb Spec_RTProfile
  Proof_Absorb Proof_Absorb2 Proof_Absorb3.
Import ListNotations.
Open Scope R_scope.

(* ---------- requested layers ---------- *)

Lemma wanted_in pl k : wanted pl k = true <-> In k pl.
Proof.
  unfold wanted. rewrite existsb_exists. split.
  - intros (j & Hj & E). apply Nat.eqb_eq in E. subst. auto.
  - intros H. exists k. split; auto. apply Nat.eqb_refl.
Qed.
Lemma known_valid (w : list R) pl : known_layers (length w) pl = true <-> valid_layers w pl.
Proof.
  unfold known_layers, valid_layers. rewrite forallb_forall. split; intros H k Hk; specialize (H k Hk).
  - apply andb_true_iff in H. rewrite !Nat.leb_le in H. auto.
  - apply andb_true_iff. rewrite !Nat.leb_le. auto.
Qed.
Lemma asc_seq n : forall k, ascending (seq k n).
Proof. induction n; intros k; cbn [seq]; constructor; auto. intros j Hj. apply in_seq in Hj. lia. Qed.
Lemma asc_filter f l : ascending l -> ascending (filter f l).
Proof.
  induction 1 as [|k l H Hl IH]; cbn [filter]; [constructor|]. destruct (f k); auto. constructor; auto.
  intros j Hj. apply filter_In in Hj. apply H. tauto.
Qed.
Lemma asc_same l : ascending l -> forall m, ascending m -> (forall x, In x l <-> In x m) -> l = m.
Proof.
  induction 1 as [|k l H Hl IH]; intros m Hm E.
  - destruct m as [|x m]; auto. destruct (proj2 (E x) (or_introl eq_refl)).
  - destruct Hm as [|j m Hj Hm]; [destruct (proj1 (E k) (or_introl eq_refl))|].
    assert (k = j).
    { destruct (proj1 (E k) (or_introl eq_refl)) as [|A]; auto. destruct (proj2 (E j) (or_introl eq_refl)) as [|B]; auto.
      specialize (H j B). specialize (Hj k A). lia. }
    subst j. f_equal. apply IH; auto. intros x. split; intros Hx.
    + destruct (proj1 (E x) (or_intror Hx)) as [->|A]; auto. specialize (H x Hx). lia.
    + destruct (proj2 (E x) (or_intror Hx)) as [->|A]; auto. specialize (Hj x Hx). lia.
Qed.
Lemma visited_asc (w : list R) pl : ascending pl -> valid_layers w pl -> visited (length w) pl = pl.
Proof.
  intros A V. unfold visited. apply asc_same; auto; [apply asc_filter, asc_seq|]. intros x. rewrite filter_In, wanted_in, in_seq.
  split; [tauto|]. intros H. specialize (V x H). split; auto. lia.
Qed.
Lemma visited_valid (w : list R) pl k : In k (visited (length w) pl) -> (1 <= k <= length w)%nat.
Proof. unfold visited. rewrite filter_In, in_seq. lia. Qed.

Lemma z_layer_mults w d pts k : 0 < d -> layer_points w d pts -> (1 <= k <= length w)%nat -> z_layer w d k = mults d (pts k).
Proof.
  intros Hd P Hk. unfold z_layer. rewrite <- (arange_mults (width w k) d 0 0 (pts k)); auto; [f_equal; unfold width; lra|lra].
Qed.

(* ---------- the grids ---------- *)

Definition wide (d : R) (cs : list nat) : list R := map (fun c => INR c * d) cs.
Definition total (cs : list nat) : nat := fold_right Nat.add 0%nat cs.
Lemma wide_sum db cs : rsum (wide db cs) = INR (total cs) * db.
Proof. induction cs as [|c r IH]; [simpl; lra|]. unfold wide, total in *. cbn [map rsum fold_right]. rewrite plus_INR. rewrite IH. lra. Qed.
Lemma wide_firstn db cs j : firstn j (wide db cs) = wide db (firstn j cs).
Proof. unfold wide. rewrite firstn_map. auto. Qed.
Lemma total_app a b : total (a ++ b) = (total a + total b)%nat.
Proof. induction a; simpl; auto. unfold total in *. lia. Qed.
Lemma total_firstn cs : forall j, (j < length cs)%nat -> total (firstn (S j) cs) = (total (firstn j cs) + nth j cs 0)%nat.
Proof. induction cs as [|c cs IH]; intros [|j] H; cbn [length] in H; try lia; cbn [firstn nth total fold_right]; [cbn; lia|].
  specialize (IH j ltac:(lia)). cbn [firstn] in *. unfold total in *. lia. Qed.
Lemma total_le cs j : (total (firstn j cs) <= total cs)%nat.
Proof. rewrite <- (firstn_skipn j cs) at 2. rewrite total_app. lia. Qed.
Lemma points_mult d c : 0 < d -> n_points (INR c * d) d 0 c.
Proof.
  intros Hd. split; [lra|]. destruct c; auto. right. rewrite Rminus_0_r. apply Rmult_lt_compat_r; auto. apply lt_INR. lia.
Qed.

Lemma grids_agree cs d pl N : 0 < d -> ascending pl -> valid_layers (wide d cs) pl -> (total cs <= N)%nat ->
  sample_depths (wide d cs) d pl = depths_in (wide d cs) pl (mults d N).
Proof.
  intros Hd A V HN. unfold sample_depths. rewrite visited_asc by auto. rewrite depths_in_eq, !flat_map_concat_map. f_equal.
  apply map_ext_in. intros k Hk. specialize (V k Hk). assert (L : length (wide d cs) = length cs) by apply map_length. rewrite L in V.
  destruct k as [|k]; [lia|].
  assert (P : forall j, n_points (rsum (firstn j (wide d cs))) d 0 (total (firstn j cs))).
  { intros j. rewrite wide_firstn, wide_sum. apply points_mult. auto. }
  assert (T := total_firstn cs k ltac:(lia)). assert (T' := total_le cs (S k)).
  etransitivity; [|symmetry; apply (bulk_points d _ _ _ _ N Hd (P (S k - 1)%nat) (P (S k)))].
  2:{ replace (S k - 1)%nat with k by lia. lia. }
  unfold z_layer, z_offset. replace (S k - 1)%nat with k by lia. rewrite T, wide_firstn, wide_sum.
  replace (total (firstn k cs) + nth k cs 0 - total (firstn k cs))%nat with (nth k cs 0%nat) by lia.
  replace (nth k (wide d cs) 0) with (INR (nth k cs 0%nat) * d - 0).
  2:{ unfold wide. rewrite (nth_map_lt _ _ _ 0%nat) by lia. lra. }
  rewrite (arange_mults _ _ 0 0 (nth k cs 0%nat)); [|auto|lra|apply points_mult; auto].
  unfold mults, stretch. rewrite map_map. generalize (total (firstn k cs)) as C, (nth k cs 0%nat) as c. intros C c.
  assert (Hgen : forall s, map (fun x => INR x * d + INR C * d) (seq s c) = map (fun m => INR m * d) (seq (C + s) c)).
  { induction c as [|c IH]; intros s; auto. cbn [seq map]. rewrite IH. f_equal; [rewrite plus_INR; lra|]. do 2 f_equal. lia. }
  rewrite Hgen. rewrite Nat.add_0_r. auto.
Qed.

(* ---------- number of samples ---------- *)

Lemma flip_length {A} s (l : list A) : length (flip_samples s l) = length l.
Proof. destruct s; cbn [flip_samples]; auto. apply rev_length. Qed.
Lemma side_length s w d pl rays k : length (side_samples s w d pl rays k) = length (z_layer w d k).
Proof. unfold side_samples. destruct (all_some _); rewrite ?flip_length, map_length; auto. Qed.
Lemma both_length w d pl rays k : length (both_samples w d pl rays k) = length (z_layer w d k).
Proof. unfold both_samples. rewrite map2_length, !side_length. lia. Qed.
Definition zlen (w : list R) (d : R) (l : list nat) : nat := total (map (fun k => length (z_layer w d k)) l).
Lemma flat_length {A} (f : nat -> list A) w d l : (forall k, In k l -> length (f k) = length (z_layer w d k)) -> length (flat_map f l) = zlen w d l.
Proof.
  unfold zlen. induction l as [|k l IH]; intros H; auto. cbn [flat_map map]. rewrite app_length, IH by (intros; apply H; right; auto).
  rewrite (H k) by (left; auto). reflexivity.
Qed.
Lemma padded_length w d pl rays k : length (padded w d pl rays k) = zlen w d (visited (length w) pl).
Proof.
  unfold padded. apply flat_length. intros j _. destruct (Nat.eqb j k); [apply both_length|apply map_length].
Qed.
Lemma depths_length w d pl : length (sample_depths w d pl) = zlen w d (visited (length w) pl).
Proof. unfold sample_depths. apply flat_length. intros. apply map_length. Qed.
Lemma n_z_eq w d pl : n_z_points w d pl = zlen w d (visited (length w) pl).
Proof.
  unfold n_z_points, zlen, visited, total. generalize (seq 1 (length w)). induction l as [|k l IH]; auto. cbn [map fold_right filter].
  rewrite IH. destruct (wanted pl k); auto.
Qed.
Lemma sum_rows_length n rows : (forall r, In r rows -> length r = n) -> length (sum_rows n rows) = n.
Proof.
  unfold sum_rows. induction rows as [|r rows IH]; intros H; cbn [fold_right]; [apply repeat_length|].
  rewrite map2_length, IH by (intros; apply H; right; auto). rewrite (H r) by (left; auto). lia.
Qed.

Lemma profile_length w d pl A rays r : wl_profile w d pl A rays = Ok r -> length r = n_z_points w d pl.
Proof.
  unfold wl_profile. destruct rays as [|y rays]; [injection 1 as <-; apply repeat_length|].
  unfold interface_profiles. destruct (known_layers _ _); [|discriminate]. injection 1 as <-.
  rewrite map_length, depths_length, n_z_eq. apply sum_rows_length. intros l Hl. apply in_map_iff in Hl. destruct Hl as (k & <- & _).
  apply padded_length.
Qed.
Lemma profile_total w d pl A rays : valid_layers w pl -> exists r, wl_profile w d pl A rays = Ok r.
Proof.
  intros V. unfold wl_profile. destruct rays; [eauto|]. unfold interface_profiles. rewrite (proj2 (known_valid w pl) V). eauto.
Qed.

(* ---------- the sum of the rows ---------- *)

Lemma map2_zero_r l n : length l = n -> map2 Rplus l (repeat 0 n) = l.
Proof. intros <-. induction l; cbn; auto. f_equal; auto. lra. Qed.
Lemma map2_zero_l l n : length l = n -> map2 Rplus (repeat 0 n) l = l.
Proof. intros <-. induction l; cbn; auto. f_equal; auto. lra. Qed.
Lemma map2_app_plus a b c e : length a = length c -> map2 Rplus (a ++ b) (c ++ e) = map2 Rplus a c ++ map2 Rplus b e.
Proof. revert c. induction a as [|x a IH]; intros [|y c] H; try discriminate; auto. cbn. f_equal. apply IH. cbn in H. lia. Qed.

(* row k of a table with one block per layer *)
Definition block (g : nat -> list R) (l : list nat) (k : nat) : list R :=
  flat_map (fun j => if Nat.eqb j k then g j else map (fun _ => 0) (g j)) l.
Lemma block_length g l k : length (block g l k) = length (flat_map g l).
Proof. unfold block. induction l; cbn [flat_map]; auto. rewrite !app_length, IHl. f_equal. destruct (Nat.eqb a k); auto. apply map_length. Qed.
Lemma block_out g l k : ~ In k l -> block g l k = repeat 0 (length (flat_map g l)).
Proof.
  unfold block. induction l as [|j l IH]; intros H; cbn [flat_map]; auto. rewrite IH by (intros X; apply H; right; auto).
  rewrite (proj2 (Nat.eqb_neq j k)) by (intros ->; apply H; left; auto). rewrite map_zero, app_length, repeat_app. auto.
Qed.
Lemma sum_blocks g l : ascending l -> sum_rows (length (flat_map g l)) (map (block g l) l) = flat_map g l.
Proof.
  intros Hl. unfold sum_rows. induction Hl as [|k l H Hl IH]; auto.
  cbn [map fold_right]. assert (Nk : ~ In k l) by (intros X; specialize (H k X); lia).
  assert (E : forall m, (forall j, In j m -> j <> k) ->
     fold_right (map2 Rplus) (repeat 0 (length (flat_map g (k :: l)))) (map (block g (k :: l)) m) =
     repeat 0 (length (g k)) ++ fold_right (map2 Rplus) (repeat 0 (length (flat_map g l))) (map (block g l) m)).
  { induction m as [|j m IHm]; intros Hm; cbn [map fold_right].
    - cbn [flat_map]. rewrite app_length, repeat_app. auto.
    - rewrite IHm by (intros; apply Hm; right; auto). unfold block at 1. cbn [flat_map].
      rewrite (proj2 (Nat.eqb_neq k j)) by (intros ->; apply (Hm j); [left|]; auto). fold (block g l j).
      rewrite map2_app_plus by (rewrite map_length, repeat_length; auto). f_equal. rewrite map_zero. apply map2_zero_l. apply repeat_length. }
  rewrite E by (intros j Hj ->; auto). rewrite IH. unfold block. cbn [flat_map]. rewrite Nat.eqb_refl. fold (block g l k).
  rewrite map2_app_plus by (rewrite repeat_length; auto). rewrite map2_zero_r by auto. f_equal. rewrite block_out by auto. apply map2_zero_l. auto.
Qed.

Lemma trapz_eq dx y : trapz_dx dx y = trapezoid dx y.
Proof. induction y as [|a [|b r] IH]; auto. Qed.
Lemma trapezoid_plus dx a : forall b, length a = length b -> trapezoid dx (map2 Rplus a b) = trapezoid dx a + trapezoid dx b.
Proof.
  induction a as [|x a IH]; intros [|y b] H; try discriminate; [simpl; lra|]. cbn [length] in H. specialize (IH b ltac:(lia)).
  destruct a as [|x' a], b as [|y' b]; try discriminate; [simpl; lra|]. cbn [map2 trapezoid] in *. rewrite IH. lra.
Qed.
Lemma trapezoid_zero dx n : trapezoid dx (repeat 0 n) = 0.
Proof. induction n as [|[|n] IH]; auto. cbn [repeat trapezoid] in *. rewrite IH. lra. Qed.
Lemma trapezoid_scale dx c y : trapezoid dx (map (fun x => c * x) y) = c * trapezoid dx y.
Proof. induction y as [|a [|b r] IH]; [simpl; lra|simpl; lra|]. cbn [map trapezoid] in *. rewrite IH. lra. Qed.
Lemma trapezoid_rows dx n rows : (forall r, In r rows -> length r = n) -> trapezoid dx (sum_rows n rows) = rsum (map (trapezoid dx) rows).
Proof.
  unfold sum_rows. induction rows as [|r rows IH]; intros H; cbn [map fold_right rsum]; [apply trapezoid_zero|].
  rewrite trapezoid_plus.
  - rewrite IH by (intros; apply H; right; auto). auto.
  - rewrite (H r) by (left; auto). symmetry. apply (sum_rows_length n rows). intros; apply H; right; auto.
Qed.

(* the profile before normalisation, and the normalisation *)
Lemma interface_form w d pl A rays : ascending pl -> valid_layers w pl ->
  let raw := flat_map (both_samples w d pl rays) pl in
  interface_profiles w d pl A rays = Ok (map (fun x => (if Rltb 0 (trapezoid d raw) then rsum A / trapezoid d raw else 0) * x) raw).
Proof.
  intros Asc V raw. unfold interface_profiles. rewrite (proj2 (known_valid w pl) V), visited_asc by auto.
  assert (R : map (padded w d pl rays) pl = map (block (both_samples w d pl rays) pl) pl).
  { apply map_ext. intros k. unfold padded, block. rewrite visited_asc by auto. apply flat_map_ext. intros j. destruct (Nat.eqb j k); auto.
    rewrite !map_zero, both_length. auto. }
  rewrite R.
  assert (L : length (sample_depths w d pl) = length raw).
  { rewrite depths_length, visited_asc by auto. symmetry. apply flat_length. intros. apply both_length. }
  assert (Sb : sum_rows (length raw) (map (block (both_samples w d pl rays) pl) pl) = raw) by (apply sum_blocks; auto).
  rewrite L, Sb.
  assert (I : rsum (map (trapz_dx d) (map (block (both_samples w d pl rays) pl) pl)) = trapezoid d raw).
  { rewrite (map_ext _ _ (trapz_eq d)). rewrite <- (trapezoid_rows d (length raw)).
    - rewrite Sb. auto.
    - intros r Hr. apply in_map_iff in Hr. destruct Hr as (k & <- & _). apply block_length. }
  rewrite I. reflexivity.
Qed.

(* ---------- samples as functions of the depth ---------- *)

Lemma law_coef c z : coef_at c z = depth_law c z.
Proof. unfold coef_at, depth_law. replace (- c_a1 c * z) with (- (c_a1 c * z)) by ring. ring. Qed.
Lemma law_amp f c z : coef_at (amp_scale f c) z = f * depth_law c z.
Proof. rewrite law_coef. unfold depth_law, amp_scale. cbn. ring. Qed.
Lemma law_share pr c z : coef_at (scale_coef pr c) z = pr * depth_law c z.
Proof.
  rewrite law_coef. unfold depth_law, scale_coef. cbn [c_A1 c_A2 c_A3r c_A3i c_a1 c_a3]. destruct (Reqb pr 0) eqn:E.
  - apply Reqb_true in E. subst. ring.
  - ring.
Qed.

Lemma rev_seq (f : nat -> R) n : rev (map f (seq 0 n)) = map (fun i => f (n - 1 - i)%nat) (seq 0 n).
Proof.
  apply (list_ext _ _ 0); [rewrite rev_length, !map_length; auto|]. intros i Hi. rewrite rev_length, map_length, seq_length in Hi.
  rewrite rev_nth by (rewrite map_length, seq_length; auto). rewrite map_length, seq_length.
  rewrite !(nth_map_lt _ _ _ 0%nat) by (rewrite seq_length; lia). rewrite !nth_seq0 by lia. f_equal. lia.
Qed.

(* the argument at which sample i of n is taken *)
Definition seen (s : side) (n i : nat) (d : R) : R := match s with Front => INR i * d | Rear => INR (n - 1 - i) * d end.
Lemma flip_mults s d n (f : R -> R) : flip_samples s (map f (mults d n)) = map (fun i => f (seen s n i d)) (seq 0 n).
Proof. unfold mults. rewrite map_map. destruct s; cbn [flip_samples seen]; auto. rewrite rev_seq. auto. Qed.

Lemma filter_id {A} (f : A -> bool) l : (forall x, In x l -> f x = true) -> filter f l = l.
Proof. induction l; intros H; auto. cbn [filter]. rewrite (H a) by (left; auto). f_equal. apply IHl. intros; apply H; right; auto. Qed.

Lemma scale_resolved pl y : pl <> [] -> resolved pl y -> ray_scale pl y = Some (mean_ratio pl y).
Proof.
  intros Hp H. unfold ray_scale. rewrite filter_id by (intros k Hk; apply Rltb_true; auto). destruct pl; [congruence|]. reflexivity.
Qed.
Lemma all_some_map {A B} (f : A -> option B) (g : A -> B) l : (forall x, In x l -> f x = Some (g x)) -> all_some (map f l) = Some (map g l).
Proof. induction l as [|x l IH]; intros H; auto. cbn [map all_some]. rewrite (H x) by (left; auto). rewrite IH by (intros; apply H; right; auto). auto. Qed.
Lemma all_some_none {A B} (f : A -> option B) l x : In x l -> f x = None -> all_some (map f l) = None.
Proof.
  induction l as [|y l IH]; intros H E; [destruct H|]. cbn [map all_some]. destruct H as [->|H]; [rewrite E; auto|].
  rewrite IH by auto. destruct (f y); auto.
Qed.

Lemma rsum_filter (f : absorbed -> bool) (h : absorbed -> R) l : rsum (map h (filter f l)) = rsum (map (fun y => if f y then h y else 0) l).
Proof. induction l as [|y l IH]; auto. cbn [filter map rsum]. destruct (f y); cbn [map rsum]; rewrite IH; lra. Qed.

Lemma side_form s w d pts pl rays k : 0 < d -> layer_points w d pts -> (1 <= k <= length w)%nat -> pl <> [] ->
  (forall y, In y rays -> from_side s y = true -> resolved pl y) ->
  side_samples s w d pl (filter (from_side s) rays) k = map (fun i => from_rays s pl rays k (seen s (pts k) i d)) (seq 0 (pts k)).
Proof.
  intros Hd P Hk Hp Hr. unfold side_samples. rewrite (all_some_map _ (fun y => (mean_ratio pl y, y))).
  2:{ intros y Hy. apply filter_In in Hy. destruct Hy. rewrite scale_resolved; auto. }
  rewrite (z_layer_mults w d pts) by auto. rewrite flip_mults. apply map_ext. intros i. rewrite map_map.
  rewrite rsum_filter. unfold from_rays. f_equal. apply map_ext. intros y. cbn [fst snd]. rewrite law_amp.
  unfold from_side. destruct s, (ab_side y); auto.
Qed.

Lemma map2_maps {A} (f g : A -> R) l : map2 Rplus (map f l) (map g l) = map (fun x => f x + g x) l.
Proof. induction l; simpl; congruence. Qed.

Lemma raw_form w d pts pl rays : 0 < d -> layer_points w d pts -> ascending pl -> valid_layers w pl -> pl <> [] ->
  (forall y, In y rays -> resolved pl y) ->
  flat_map (both_samples w d pl rays) pl = by_layer pl pts (ray_sample pl rays d pts).
Proof.
  intros Hd P As V Hp Hr. unfold by_layer. rewrite !flat_map_concat_map. f_equal. apply map_ext_in. intros k Hk. unfold both_samples.
  rewrite !(side_form _ w d pts) by auto. rewrite map2_maps. apply map_ext. intros i. reflexivity.
Qed.

Lemma rays_profile w d pts pl A rays : 0 < d -> layer_points w d pts -> ascending pl -> valid_layers w pl -> pl <> [] -> rays <> [] ->
  (forall y, In y rays -> resolved pl y) ->
  let raw := by_layer pl pts (ray_sample pl rays d pts) in
  0 < trapezoid d raw ->
  exists r, wl_profile w d pl A rays = Ok r /\ trapezoid d r = rsum A /\ r = map (fun x => rsum A / trapezoid d raw * x) raw.
Proof.
  intros Hd P As V Hp Hn Hr raw Hpos. unfold wl_profile. destruct rays as [|y0 rays]; [congruence|].
  rewrite interface_form by auto. rewrite (raw_form w d pts) by auto. fold raw. rewrite (proj2 (Rltb_true _ _) Hpos).
  eexists. split; [reflexivity|]. split; auto. rewrite trapezoid_scale. field. lra.
Qed.

(* one ray without a table entry above the threshold: nothing is left of its side *)
Lemma nan_ray w d pl rays A y : ascending pl -> valid_layers w pl -> In y rays ->
  (forall k, In k pl -> ab_look y k <= / 10 ^ 10) -> (forall x, In x rays -> ab_side x = ab_side y) ->
  exists r, wl_profile w d pl A rays = Ok r /\ forall v, In v r -> v = 0.
Proof.
  intros As V Hy Hl Hs. unfold wl_profile. destruct rays as [|y0 rays0]; [destruct Hy|]. remember (y0 :: rays0) as rays.
  rewrite interface_form by auto. eexists. split; [reflexivity|].
  assert (Z : forall k v, In v (both_samples w d pl rays k) -> v = 0).
  { assert (N : ray_scale pl y = None).
    { unfold ray_scale. rewrite filter_none; auto. intros k Hk. apply Rltb_false. auto. }
    assert (Zs : forall k s, side_samples s w d pl (filter (from_side s) rays) k = map (fun _ => 0) (z_layer w d k)).
    { intros k s. unfold side_samples. destruct (from_side s y) eqn:E.
      - rewrite (all_some_none _ _ y); auto; [apply filter_In; auto|]. rewrite N. auto.
      - rewrite filter_none; [cbn [map all_some]|].
        + destruct s; cbn [flip_samples rsum map]; auto. rewrite <- map_rev. rewrite !map_zero, rev_length. auto.
        + intros x Hx. specialize (Hs x Hx). unfold from_side in *. destruct s, (ab_side y); try discriminate; rewrite Hs; auto. }
    intros k v. unfold both_samples. rewrite !Zs, map2_maps. intros Hv. apply in_map_iff in Hv. destruct Hv as (z & <- & _). lra. }
  intros v Hv. apply in_map_iff in Hv. destruct Hv as (x & <- & Hx). apply in_flat_map in Hx. destruct Hx as (k & _ & Hx).
  rewrite (Z k x Hx). lra.
Qed.

(* ---------- make_profiles_wl ---------- *)

Lemma used_needed n pl a k z : as_pr a = 0 \/ angle_used n pl (scaled a) = true ->
  (if angle_used n pl (scaled a) then as_pr a * depth_law (as_cf a k) z else 0) = as_pr a * depth_law (as_cf a k) z.
Proof. intros [H|H]; [rewrite H; destruct (angle_used _ _ _); ring|rewrite H; auto]. Qed.

Lemma angles_form s w d pts pl angles : 0 < d -> layer_points w d pts -> ascending pl -> valid_layers w pl ->
  (forall a, In a angles -> as_pr a = 0 \/ angle_used (length w) pl (scaled a) = true) ->
  make_profile s w d pl angles = Ok (by_layer pl pts (fun k i => Rmax 0 (from_angles angles k (seen s (pts k) i d)))).
Proof.
  intros Hd P As V Ha. unfold make_profile. rewrite (proj2 (known_valid w pl) V), visited_asc by auto. f_equal.
  unfold by_layer. rewrite !flat_map_concat_map, concat_map, map_map. f_equal. apply map_ext_in. intros k Hk. unfold layer_samples.
  rewrite (z_layer_mults w d pts) by auto. rewrite flip_mults, map_map. apply map_ext. intros i. rewrite clip_max. f_equal. unfold from_angles.
  clear - Ha. induction angles as [|a l IH]; auto. cbn [filter map rsum]. rewrite <- (used_needed (length w) pl a k) by (apply Ha; left; auto).
  rewrite <- IH by (intros; apply Ha; right; auto). destruct (angle_used (length w) pl (scaled a)); cbn [map rsum]; [|lra].
  unfold scaled at 1. rewrite law_share. auto.
Qed.

Lemma used_if (w : list R) pl a : ((exists k, (1 <= k <= length w)%nat /\ ~ In k pl) \/ (as_pr a <> 0 /\ rsum (map (fun k => c_A1 (as_cf a k)) (seq 1 (length w))) <> 0)) ->
  angle_used (length w) pl (scaled a) = true.
Proof.
  unfold angle_used. destruct (forallb _ _) eqn:E; auto. rewrite forallb_forall in E. intros [(k & Hk & Hn)|[Hp Hs]].
  - destruct Hn. apply wanted_in. apply E. apply in_seq. lia.
  - apply negb_true_iff, Reqb_false. 
    rewrite (map_ext _ (fun k => as_pr a * c_A1 (as_cf a k))) by reflexivity. rewrite <- (map_map (fun k => c_A1 (as_cf a k)) (fun x => as_pr a * x)), rsum_map_mult.
    apply Rmult_integral_contrapositive_currified; auto.
Qed.

(* all layers requested, none of them coherent: every angle is dropped *)
Lemma angles_dropped s w d pl angles : ascending pl -> valid_layers w pl -> (forall k, (1 <= k <= length w)%nat -> In k pl) ->
  (forall a k, In a angles -> (1 <= k <= length w)%nat -> c_A1 (as_cf a k) = 0) ->
  exists r, make_profile s w d pl angles = Ok r /\ forall v, In v r -> v = 0.
Proof.
  intros As V All Z. unfold make_profile. rewrite (proj2 (known_valid w pl) V), visited_asc by auto. eexists. split; [reflexivity|].
  rewrite filter_none.
  - intros v Hv. apply in_map_iff in Hv. destruct Hv as (x & <- & Hx). apply in_flat_map in Hx. destruct Hx as (k & _ & Hx).
    unfold layer_samples in Hx. cbn [map rsum] in Hx. assert (x = 0).
    { destruct s; cbn [flip_samples] in Hx; [|apply in_rev in Hx]; apply in_map_iff in Hx; destruct Hx as (z & <- & _); auto. }
    subst x. rewrite clip_max. apply Rmax_left. lra.
  - intros a Ha. unfold angle_used. rewrite (proj2 (forallb_forall _ _)).
    + apply negb_false_iff, Reqb_true. rewrite (map_ext_in _ (fun _ => 0)); [generalize (seq 1 (length w)); induction l; cbn [map rsum]; lra|]. intros k Hk. cbn. apply in_seq in Hk.
      rewrite Z by (auto; lia). ring.
    + intros k Hk. apply in_seq in Hk. apply wanted_in. apply All. lia.
Qed.

Lemma counted_used (w : list R) pl a : counted w pl a -> as_pr a = 0 \/ angle_used (length w) pl (scaled a) = true.
Proof. intros [H|[H|H]]; auto; destruct (Req_dec (as_pr a) 0) as [E|E]; auto; right; apply used_if; auto. Qed.

Lemma front_spec w d pts pl angles : 0 < d -> layer_points w d pts -> ascending pl -> valid_layers w pl ->
  (forall a, In a angles -> counted w pl a) ->
  make_profile Front w d pl angles = Ok (by_layer pl pts (fun k i => Rmax 0 (from_angles angles k (INR i * d)))).
Proof. intros Hd P As V Ha. rewrite (angles_form Front w d pts) by (auto; intros; apply counted_used; auto). reflexivity. Qed.

Lemma by_layer_ext pl pts g h : (forall k i, In k pl -> (i < pts k)%nat -> g k i = h k i) -> by_layer pl pts g = by_layer pl pts h.
Proof.
  intros H. unfold by_layer. rewrite !flat_map_concat_map. f_equal. apply map_ext_in. intros k Hk. apply map_ext_in. intros i Hi. apply in_seq in Hi.
  apply H; auto. lia.
Qed.

Lemma rear_spec w d pts pl angles : 0 < d -> layer_points w d pts -> ascending pl -> valid_layers w pl ->
  (forall a, In a angles -> counted w pl a) ->
  exists off, (forall k, In k pl -> (0 < pts k)%nat -> 0 < off k <= d /\ (off k = d <-> width w k = INR (pts k) * d)) /\
    make_profile Rear w d pl angles = Ok (by_layer pl pts (fun k i => Rmax 0 (from_angles angles k (width w k - INR i * d - off k)))).
Proof.
  intros Hd P As V Ha. exists (fun k => width w k - INR (pts k - 1) * d). split.
  - intros k Hk Hp. destruct (P k) as [P1 P2]; [apply V; auto|]. rewrite minus_INR by lia. simpl (INR 1).
    destruct P2 as [P2|P2]; [lia|]. rewrite minus_INR in P2 by lia. simpl (INR 1) in P2. split; [split; nra|]. split; intros; nra.
  - rewrite (angles_form Rear w d pts) by (auto; intros; apply counted_used; auto). f_equal. apply by_layer_ext. intros k i Hk Hi. do 2 f_equal.
    cbn [seen]. rewrite !minus_INR by lia. ring.
Qed.
