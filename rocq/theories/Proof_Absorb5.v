From Coq Require Import Reals List ZArith Bool Lia Lra Sorting.Sorted.
From Verif Require Import Base Lib Model_TMM Proof_TMM3 Model_Absorb Spec_Absorb Proof_Absorb Proof_Absorb2 Proof_Absorb3 Proof_Absorb4.
From Verif Require Proof_RayProfile.
Import ListNotations.
Open Scope R_scope.

Ltac bind H := match type of H with rbind ?x _ = Ok _ => let E := fresh "E" in destruct x eqn:E; cbn [rbind] in H; [|discriminate] end.

(* ---------- positions ---------- *)

Definition inrange (a b : R) (l : list R) : Prop := StronglySorted Rlt l /\ forall x, In x l -> a <= x < b.
Lemma range_nil a b : inrange a b [].
Proof. split; [constructor|intros x []]. Qed.
Lemma range_app a b c l m : a <= b <= c -> inrange a b l -> inrange b c m -> inrange a c (l ++ m).
Proof.
  intros Hab [L1 L2] [M1 M2]. split.
  - apply sorted_app; auto. intros x y Hx Hy. specialize (L2 x Hx). specialize (M2 y Hy). lra.
  - intros x Hx. apply in_app_or in Hx. destruct Hx as [Hx|Hx]; [specialize (L2 x Hx)|specialize (M2 x Hx)]; lra.
Qed.
Lemma range_map a b l k c : 0 < k -> inrange a b l -> inrange (a * k + c) (b * k + c) (map (fun x => x * k + c) l).
Proof.
  intros Hk [L1 L2]. split.
  - clear L2. induction L1 as [|x l L1 IH Hx]; cbn [map]; constructor; auto. apply Forall_forall. intros y Hy. apply in_map_iff in Hy.
    destruct Hy as (z & <- & Hz). rewrite Forall_forall in Hx. specialize (Hx z Hz). apply Rplus_lt_compat_r. apply Rmult_lt_compat_r; auto.
  - intros y Hy. apply in_map_iff in Hy. destruct Hy as (z & <- & Hz). specialize (L2 z Hz).
    split; [apply Rplus_le_compat_r; apply Rmult_le_compat_r; lra|apply Rplus_lt_compat_r; apply Rmult_lt_compat_r; lra].
Qed.
Lemma range_ext a b a' b' l l' : a = a' -> b = b' -> l = l' -> inrange a b l -> inrange a' b' l'.
Proof. intros -> -> ->. auto. Qed.
Lemma range_weak a b b' l : b <= b' -> inrange a b l -> inrange a b' l.
Proof. intros H [L1 L2]. split; auto. intros x Hx. specialize (L2 x Hx). lra. Qed.
Lemma range_arange W d : 0 < d -> inrange 0 W (arange0 W d).
Proof. intros Hd. split; [apply arange_sorted; auto|]. intros x Hx. apply arange_range in Hx; auto. Qed.

Lemma range_via (g : R -> R) l k c a b a' b' : inrange a b l -> 0 < k -> (forall x, g x = x * k + c) -> a' = a * k + c -> b' = b * k + c ->
  inrange a' b' (map g l).
Proof. intros H Hk Hg -> ->. rewrite (map_ext _ _ Hg). apply range_map; auto. Qed.
Lemma range_grid (g : R -> R) W W' d k c a b : 0 < d -> 0 < k -> W' <= W -> (forall x, g x = x * k + c) -> a = c -> b = W * k + c ->
  inrange a b (map g (arange0 W' d)).
Proof.
  intros Hd Hk HW Hg -> ->. rewrite (map_ext _ _ Hg). pose proof (range_map 0 W _ k c Hk (range_weak _ _ _ _ HW (range_arange W' d Hd))) as H.
  rewrite Rmult_0_l, Rplus_0_l in H. auto.
Qed.

Lemma interp_pos p y g : interp1d p y = Ok g -> g_pos g = p.
Proof. unfold interp1d. destruct (forallb _ _); [|discriminate]. injection 1 as <-. auto. Qed.

Lemma matrix_range r structure o g wf pf wb wk pk rest :
  0 < ao_d o -> 0 < ao_db o -> 0 <= rsum wf -> 0 <= wb -> 0 <= rsum wk ->
  structure = EIface wf pf :: EBulk wb :: EIface wk pk :: rest ->
  absorption_matrix r structure o = Ok g -> inrange 0 (rsum wf + wb + rsum wk) (g_pos g).
Proof.
  intros Hd Hdb Hf Hb Hk -> H. unfold absorption_matrix in H. destruct r as [[profiles bulks]|]; [|discriminate].
  bind H. bind H. bind H. repeat (rewrite ?py0, ?py1, ?py2 in H; cbn [rbind iface_of bulk_of fst snd] in H).
  bind H. bind H. destruct (ao_bulk o); [|discriminate]. match type of H with match ?x with Some _ => _ | None => _ end = _ => destruct x; [|discriminate] end. bind H. apply interp_pos in H. rewrite H. clear - Hd Hdb Hf Hb Hk.
  assert (P9 : 0 < / 10 ^ 9) by (apply Rinv_0_lt_compat, pow_lt; lra). assert (P6 : 0 < / 10 ^ 6) by (apply Rinv_0_lt_compat, pow_lt; lra).
  assert (Q9 : 0 < 10 ^ 9) by (apply pow_lt; lra). assert (Q6 : 0 < 10 ^ 6) by (apply pow_lt; lra).
  assert (Q12 : 0 < / 10 ^ 12) by (apply Rinv_0_lt_compat, pow_lt; lra).
  assert (Hd9 : 0 < ao_d o * 10 ^ 9) by (apply Rmult_lt_0_compat; auto). assert (Hd6 : 0 < ao_db o * 10 ^ 6) by (apply Rmult_lt_0_compat; auto).
  apply (range_app _ (rsum wf)); [lra| |apply (range_app _ (rsum wf + wb)); [lra| |]].
  - apply (range_grid _ (rsum (nm wf)) _ _ (/ 10 ^ 9) 0); auto; [lra| |].
    + intros. unfold Rdiv. lra.
    + rewrite nm_sum. field.
  - apply (range_grid _ (wb * 10 ^ 6) _ _ (/ 10 ^ 6) (rsum wf)); auto; [lra| |].
    + intros. rewrite nm_sum. field.
    + field.
  - apply (range_grid _ (rsum (nm wk)) _ _ (/ 10 ^ 9) (rsum wf + wb)); auto; [lra| |].
    + intros. rewrite nm_sum. field.
    + rewrite nm_sum. field.
Qed.

Lemma sorted_filter f l : StronglySorted Rlt l -> StronglySorted Rlt (filter f l).
Proof.
  induction 1 as [|x l H IH Hx]; cbn [filter]; [constructor|]. destruct (f x); auto. constructor; auto.
  apply Forall_forall. intros y Hy. apply filter_In in Hy. rewrite Forall_forall in Hx. apply Hx. tauto.
Qed.
Lemma np_min_in l lo : np_min l = Ok lo -> In lo l /\ forall x, In x l -> lo <= x.
Proof.
  destruct l as [|x l]; [discriminate|]. cbn [np_min]. injection 1 as <-. revert x.
  induction l as [|y l IH]; intros x; cbn [fold_left].
  - split; [left; auto|]. intros z [->|[]]. lra.
  - destruct (IH (Rmin x y)) as [A B]. split.
    + destruct A as [A|A]; [|right; right; auto]. rewrite <- A. unfold Rmin. destruct (Rle_dec x y); [left|right; left]; auto.
    + intros z [->|[->|Hz]].
      * apply Rle_trans with (Rmin z y); [apply B; left; auto|apply Rmin_l].
      * apply Rle_trans with (Rmin x z); [apply B; left; auto|apply Rmin_r].
      * apply B. right. auto.
Qed.

Lemma cumsum_at w i e : py_index (cumsum w) (Z.of_nat i) = Ok e -> (i < length w)%nat /\ e = rsum (firstn (S i) w).
Proof.
  intros H. destruct (Nat.lt_ge_cases i (length w)) as [Hi|Hi].
  - split; auto. rewrite (py_index_ok _ _ 0) in H by (unfold cumsum; rewrite Proof_RayProfile.cumsum_go_length; lia).
    injection H as <-. rewrite Nat2Z.id. unfold cumsum. rewrite Proof_RayProfile.cumsum_go_nth by lia. lra.
  - unfold py_index in H. destruct (Z.ltb_spec (Z.of_nat i) 0); [lia|]. destruct (Z.ltb_spec (Z.of_nat i) 0); [lia|]. rewrite Nat2Z.id in H.
    rewrite (proj2 (nth_error_None _ _)) in H; [discriminate|]. unfold cumsum. rewrite Proof_RayProfile.cumsum_go_length. auto.
Qed.
Lemma cumsum0_at w i s : (i < length w)%nat -> py_index (0 :: cumsum w) (Z.of_nat i) = Ok s -> s = rsum (firstn i w).
Proof.
  intros Hi H. rewrite (py_index_ok _ _ 0) in H by (cbn [length]; unfold cumsum; rewrite Proof_RayProfile.cumsum_go_length; lia).
  injection H as <-. rewrite Nat2Z.id. destruct i; auto. cbn [nth]. unfold cumsum. rewrite Proof_RayProfile.cumsum_go_nth by lia. lra.
Qed.
Lemma firstn_add (w : list R) i v : nth_error w i = Some v -> rsum (firstn (S i) w) = rsum (firstn i w) + v.
Proof.
  revert i. induction w as [|a l IH]; intros [|i] H; try discriminate; cbn [nth_error] in H.
  - injection H as ->. cbn [firstn rsum]. lra.
  - specialize (IH i H). cbn [firstn rsum] in *. rewrite IH. lra.
Qed.
Lemma py_nth_inv {A} (l : list A) i x : py_index l (Z.of_nat i) = Ok x -> nth_error l i = Some x.
Proof.
  unfold py_index. destruct (Z.ltb_spec (Z.of_nat i) 0); [lia|]. destruct (Z.ltb_spec (Z.of_nat i) 0); [lia|].
  rewrite Nat2Z.id. destruct (nth_error l i); congruence.
Qed.

Lemma bulk_range widths bp res i off cum p t off' w : StronglySorted Rlt bp ->
  rt_bulk widths bp res i off cum = Ok (p, t, off') -> py_index widths (Z.of_nat i) = Ok w -> inrange cum (cum + w) p.
Proof.
  intros Hs H Hw. unfold rt_bulk in H. bind H. bind H. bind H. injection H as <- _ _.
  apply cumsum_at in E0. destruct E0 as [Hi ->]. apply cumsum0_at in E; auto. subst r. apply py_nth_inv in Hw. rewrite (firstn_add _ _ _ Hw) in *.
  apply np_min_in in E1. destruct E1 as [Hin Hlo].
  assert (L : forall x, In x (filter (inside (rsum (firstn i widths)) (rsum (firstn i widths) + w)) bp) -> r1 <= x < r1 + w).
  { intros x Hx. split; [auto|]. apply filter_In in Hx. apply filter_In in Hin. destruct Hx as [_ Hx], Hin as [_ Hin].
    apply inside_true in Hx. apply inside_true in Hin. lra. }
  apply (range_via _ _ 1 (cum - r1) r1 (r1 + w)); try lra; [|intros; lra]. split; [apply (sorted_filter _ _ Hs)|exact L].
Qed.

Definition sw (s : surface) : R := iface_width s.
Lemma pieces_range o widths bp res nn : 0 < ao_d o -> StronglySorted Rlt bp -> (forall w, In w widths -> 0 <= w) ->
  forall surfaces i off cum pieces, (forall s, In s surfaces -> 0 <= iface_width s) ->
  nn = (i + length surfaces)%nat -> rt_pieces o widths bp res nn surfaces i off cum = Ok pieces ->
  inrange cum (cum + rsum (map iface_width surfaces) + (rsum widths - rsum (firstn i widths))) (concat (map fst pieces)).
Proof.
  intros Hd Hs Hw. assert (P9 : 0 < / 10 ^ 9) by (apply Rinv_0_lt_compat, pow_lt; lra). assert (Q9 : 0 < 10 ^ 9) by (apply pow_lt; lra).
  assert (Hd9 : 0 < ao_d o * 10 ^ 9) by (apply Rmult_lt_0_compat; auto).
  assert (Hrest : forall i, 0 <= rsum widths - rsum (firstn i widths)).
  { intros i. rewrite <- (firstn_skipn i widths) at 1. rewrite rsum_app. assert (0 <= rsum (skipn i widths)); [|lra].
    apply rsum_nonneg. intros x Hx. apply Hw. rewrite <- (firstn_skipn i widths). apply in_or_app. auto. }
  induction surfaces as [|sf surfaces IH]; intros i off cum pieces Hi Hnn H; cbn [rt_pieces] in H.
  { injection H as <-. cbn. apply range_nil. }
  assert (Wsf := Hi sf (or_introl eq_refl)).
  assert (Wr : 0 <= rsum (map iface_width surfaces)).
  { apply rsum_nonneg. intros x Hx. apply in_map_iff in Hx. destruct Hx as (s & <- & Hx). apply Hi. right. auto. }
  bind H. destruct p as [here cum1].
  assert (Hh : cum1 = cum + iface_width sf /\ inrange cum cum1 (concat (map fst here))).
  { unfold iface_width in *. destruct (sf_layers sf) as [ws|].
    - bind E. destruct p as [pos t]. injection E as <- <-. unfold rt_surface in E0. bind E0. injection E0 as <- <-. cbn [map fst concat]. rewrite app_nil_r.
      split; [unfold Rdiv; lra|]. apply (range_grid _ (rsum ws) _ _ (/ 10 ^ 9) cum); auto; [lra|].
      intros. unfold Rdiv. lra.
    - injection E as <- <-. split; [lra|apply range_nil]. }
  destruct Hh as [Ec Hh]. cbn [fst snd] in H. cbn [map rsum]. cbn [length] in Hnn. destruct (Nat.ltb i (nn - 1)) eqn:Elt.
  - bind H. bind H. bind H. injection H as <-. destruct p as [[pos t] off']. cbn [fst snd] in *.
    apply IH in E2; [|intros; apply Hi; right; auto|lia]. assert (B := bulk_range _ _ _ _ _ _ _ _ _ _ Hs E0 E1).
    rewrite !map_app, !concat_app. cbn [map concat app fst]. rewrite ?app_nil_r.
    apply py_nth_inv in E1. rewrite (firstn_add _ _ _ E1) in E2. assert (0 <= r) by (apply Hw; eapply nth_error_In; eauto).
    specialize (Hrest (S i)). rewrite (firstn_add _ _ _ E1) in Hrest.
    apply (range_app _ cum1); [lra|auto|]. cbn [fst]. apply (range_app _ (cum1 + r)); [lra|auto|].
    eapply range_ext; [| | |exact E2]; auto. lra.
  - bind H. injection H as <-. apply Nat.ltb_ge in Elt. assert (surfaces = []) by (destruct surfaces; auto; cbn [length] in Hnn; lia). subst surfaces.
    cbn [rt_pieces] in E0. injection E0 as <-. rewrite app_nil_r. eapply range_weak; [|exact Hh]. specialize (Hrest i). cbn [map rsum]. lra.
Qed.

Lemma rt_range res st o g : 0 < ao_d o -> 0 < ao_db o -> (forall w, In w (rt_widths st) -> 0 <= w) ->
  (forall s, In s (rt_surfaces st) -> 0 <= iface_width s) ->
  absorption_rt res st o = Ok g -> inrange 0 (rsum (map iface_width (rt_surfaces st)) + rsum (rt_widths st)) (g_pos g).
Proof.
  intros Hd Hdb Hw Hs H. unfold absorption_rt in H. bind H. bind H. apply interp_pos in H. rewrite H.
  apply pieces_range in E; auto.
  - eapply range_ext; [| | |exact E]; auto. cbn [firstn rsum]. lra.
  - assert (P : 0 < / 10 ^ 6) by (apply Rinv_0_lt_compat, pow_lt; lra).
    apply (sorted_map_ext (fun x => x * / 10 ^ 6 + 0)); [intros; unfold Rdiv; lra|].
    apply (range_map 0 (rsum (rt_widths st) * 10 ^ 6) _ _ 0 P). apply range_arange. apply Rmult_lt_0_compat; [auto|apply pow_lt; lra].
Qed.

Lemma plain_range t width d g : 0 < d -> absorption_plain t width d = Ok g -> inrange 0 width (g_pos g).
Proof.
  intros Hd H. unfold absorption_plain in H. apply interp_pos in H. rewrite H.
  assert (P : 0 < / 10 ^ 6) by (apply Rinv_0_lt_compat, pow_lt; lra). assert (Q : 0 < 10 ^ 6) by (apply pow_lt; lra).
  apply (range_grid _ (width * 10 ^ 6) _ _ (/ 10 ^ 6) 0); auto; [apply Rmult_lt_0_compat; auto|lra| |].
  - intros. unfold Rdiv. lra.
  - field.
Qed.

(* ---------- one grid ---------- *)

Lemma tmm_layout w d n layers : 0 < d -> n_points (rsum w) d 0 n -> valid_layers w layers ->
  profile_depths w d layers = Ok (depths_in w layers (mults d n)).
Proof.
  intros Hd Hn V. unfold profile_depths. rewrite depths_in_eq. rewrite <- (arange_mults (rsum w) d 0 0 n) by (auto; lra). rewrite Rminus_0_r.
  generalize (arange0 (rsum w) d) as pts. intros pts. induction layers as [|k l IH]; auto. cbn [depth_points flat_map].
  destruct (layer_bounds w k (V k (or_introl eq_refl))) as [B1 B2]. rewrite B1, B2. cbn [rbind]. rewrite IH by (intros j Hj; apply V; right; auto).
  reflexivity.
Qed.

Lemma points_scale W d c n : 0 < c -> n_points W d 0 n -> n_points (W * c) (d * c) 0 n.
Proof.
  intros Hc [A B]. split; [rewrite <- Rmult_assoc; apply Rmult_le_compat_r; lra|]. destruct B as [B|B]; auto. right.
  rewrite Rminus_0_r in *. rewrite <- Rmult_assoc. apply Rmult_lt_compat_r; lra.
Qed.

Lemma plain_spec n (f : nat -> R -> R) W d N : 0 < d -> n_points W (d * 10 ^ 9) 0 N ->
  exists g, absorption_plain (sampled n f (mults (d * 10 ^ 9) N)) (W / 10 ^ 9) d = Ok g /\ proper n g /\
    forall i, (i < n)%nat -> forall x v, node g i x v <-> exists m, (m < N)%nat /\ x = INR m * d /\ v = 10 ^ 9 * f i (INR m * (d * 10 ^ 9)).
Proof.
  intros Hd HN. assert (P9 : 0 < 10 ^ 9) by (apply pow_lt; lra). assert (P6 : 0 < 10 ^ 6) by (apply pow_lt; lra).
  assert (HN6 : n_points (W / 10 ^ 9 * 10 ^ 6) (d * 10 ^ 6) 0 N).
  { apply points_scale; auto. replace d with (d * 10 ^ 9 * / 10 ^ 9) by (field; lra). apply points_scale; auto. apply Rinv_0_lt_compat. auto. }
  set (nodes := map (fun m => (INR m * d, fun i : nat => 10 ^ 9 * f i (INR m * (d * 10 ^ 9)))) (seq 0 N)).
  exists (gen_of n nodes). split; [|split].
  - unfold absorption_plain. rewrite <- interp_gen. unfold nodes. f_equal.
    + rewrite <- (Rminus_0_r (W / 10 ^ 9 * 10 ^ 6)). rewrite (arange_mults _ _ 0 0 N); [|apply Rmult_lt_0_compat; auto|lra|auto].
      unfold mults. rewrite !map_map. apply map_ext. intros. cbn [fst]. field.
    + unfold scale, sampled, rows. rewrite map_map. apply map_ext. intros i. unfold mults. rewrite !map_map. apply map_ext. intros m. reflexivity.
  - apply gen_proper. unfold nodes. rewrite map_map. cbn [fst].
    replace (map (fun x => INR x * d) (seq 0 N)) with (map (fun x => x * 1 + 0) (mults d N)).
    + apply mults_sorted; lra.
    + unfold mults. rewrite map_map. apply map_ext. intros. lra.
  - intros i Hi x v. rewrite gen_node by auto. unfold nodes. split.
    + intros (nd & H & <- & <-). apply in_map_iff in H. destruct H as (m & <- & H). apply in_seq in H. exists m. split; [lia|]. auto.
    + intros (m & Hm & -> & ->). eexists. split; [apply in_map; apply in_seq; split; [apply Nat.le_0_l|exact Hm]|]. auto.
Qed.

Lemma plain_mismatch t width d row N : 0 < d -> n_points width d 0 N -> In row t -> length row <> N -> absorption_plain t width d = Err ValueError.
Proof.
  intros Hd HN Hin Hl. assert (P6 : 0 < 10 ^ 6) by (apply pow_lt; lra). unfold absorption_plain, interp1d.
  rewrite <- (Rminus_0_r (width * 10 ^ 6)). rewrite (arange_mults _ _ 0 0 N); [|apply Rmult_lt_0_compat; auto|lra|apply points_scale; auto].
  destruct (forallb _ _) eqn:E; auto. rewrite forallb_forall in E. specialize (E (map (fun x => 10 ^ 9 * x) row)).
  destruct Hl. assert (E' := E ltac:(apply in_map; auto)). apply Nat.eqb_eq in E'. unfold mults in E'. rewrite !map_length, seq_length in E'. auto.
Qed.

(* ---------- a bulk layer without grid point ---------- *)

Lemma py_at {A} (l : list A) i x : nth_error l i = Some x -> py_index l (Z.of_nat i) = Ok x.
Proof.
  intros H. unfold py_index. destruct (Z.ltb_spec (Z.of_nat i) 0); [lia|]. destruct (Z.ltb_spec (Z.of_nat i) 0); [lia|].
  rewrite Nat2Z.id, H. auto.
Qed.
Lemma bulk_empty widths bp res i off cum s e : nth_error (0 :: cumsum widths) i = Some s -> nth_error (cumsum widths) i = Some e ->
  (forall x, In x bp -> ~ s <= x < e) -> rt_bulk widths bp res i off cum = Err ValueError.
Proof.
  intros Hs He H. unfold rt_bulk. rewrite (py_at _ _ _ Hs), (py_at _ _ _ He). cbn [rbind]. rewrite filter_none; auto.
  intros x Hx. destruct (inside s e x) eqn:E; auto. apply inside_true in E. destruct (H x Hx E).
Qed.

Lemma positions_range r s o g : 0 < ao_d o -> 0 < ao_db o -> nonneg s -> make_absorption_function r s o = Ok g ->
  increasing_pos (g_pos g) /\ forall x, In x (g_pos g) -> 0 <= x < thickness s.
Proof.
  intros Hd Hdb Hn H. enough (inrange 0 (thickness s) (g_pos g)) as [A B] by (split; [apply sorted_increasing|]; auto).
  destruct s as [l|w|st w|], r as [m|t|rr]; try discriminate; cbn [make_absorption_function thickness nonneg] in *.
  - destruct l as [|[wf pf|w0] [|[w1 p1|wb] [|[wk pk|w2] rest]]];
      try (exfalso; unfold absorption_matrix in H; destruct m as [[profiles bulks]|]; [|discriminate]; do 3 bind H;
           repeat (rewrite ?py0, ?py1, ?py2 in H; cbn [rbind iface_of bulk_of] in H); discriminate).
    eapply matrix_range; [exact Hd|exact Hdb| | | |reflexivity|exact H].
    + apply (Hn (EIface wf pf)). left; auto.
    + apply (Hn (EBulk wb)). right; left; auto.
    + apply (Hn (EIface wk pk)). right; right; left; auto.
  - apply plain_range in H; auto.
  - destruct Hn as [A B]. destruct (existsb is_tmm (rt_surfaces st)); [apply rt_range in H; auto|apply plain_range in H; auto].
Qed.
