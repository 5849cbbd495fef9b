(* Lemmas for ideal_cases.py *)
From Coq Require Import Reals List ZArith Bool Lia Lra Psatz.
From Verif Require Import Base Lib Model_Angles Proof_Angles Spec_Angles Proof_AnglesProps
  Model_Ideal Spec_Matrix.
Import ListNotations.
Open Scope R_scope.

(* ---------- rmap ---------- *)

Lemma rmap_ok {A B} (f : A -> res B) (h : A -> B) l :
  (forall x, In x l -> f x = Ok (h x)) -> rmap f l = Ok (map h l).
Proof.
  induction l; intros H; simpl; auto.
  rewrite H by (simpl; auto). cbn [rbind]. rewrite IHl by (intros; apply H; simpl; auto). auto.
Qed.

Lemma rmap_length {A B} (f : A -> res B) l l' : rmap f l = Ok l' -> length l' = length l.
Proof.
  revert l'. induction l; simpl; intros l' H; [inversion H; auto|].
  destruct (f a); simpl in H; try discriminate.
  destruct (rmap f l) eqn:E; simpl in H; try discriminate. inversion H. simpl. f_equal. apply IHl. auto.
Qed.

Lemma rmap_nth {A B} (f : A -> res B) l l' i d d' : rmap f l = Ok l' -> (i < length l)%nat ->
  f (nth i l d) = Ok (nth i l' d').
Proof.
  revert l' i. induction l; simpl; intros l' i H Hi; [lia|].
  destruct (f a) eqn:Ea; simpl in H; try discriminate.
  destruct (rmap f l) eqn:E; simpl in H; try discriminate. inversion H. subst.
  destruct i; simpl; auto. apply IHl; auto. lia.
Qed.

(* ---------- onehot ---------- *)

Lemma onehot_entry nr pos r c : (r < nr)%nat -> (c < length pos)%nat ->
  entry (onehot nr pos) r c = if Nat.eqb r (nth c pos 0%nat) then 1 else 0.
Proof.
  intros Hr Hc. unfold entry, onehot.
  rewrite nth_map_lt with (da := 0%nat) by (rewrite seq_length; auto).
  rewrite nth_seq0 by auto.
  rewrite nth_map_lt with (da := 0%nat) by auto. auto.
Qed.

Lemma onehot_shape nr pos : has_shape (onehot nr pos) nr (length pos).
Proof.
  split.
  - unfold onehot. rewrite map_length, seq_length. auto.
  - intros row H. unfold onehot in H. apply in_map_iff in H. destruct H as [r [<- _]].
    apply map_length.
Qed.

Lemma col_total_tab m nr c : length m = nr ->
  col_total m c = rsum (map (fun r => entry m r c) (seq 0 nr)).
Proof.
  intros Hl. unfold col_total, entry.
  rewrite <- (map_nth_seq m []) at 1. rewrite map_map, Hl. auto.
Qed.

Lemma col_total_onehot nr pos c : (c < length pos)%nat -> (nth c pos 0 < nr)%nat ->
  col_total (onehot nr pos) c = 1.
Proof.
  intros Hc Hp. rewrite (col_total_tab _ nr) by (apply onehot_shape).
  rewrite (rsum_map_single _ nr (nth c pos 0%nat)); auto.
  - rewrite onehot_entry by auto. rewrite Nat.eqb_refl. auto.
  - intros j Hj Hne. rewrite onehot_entry by auto.
    destruct (Nat.eqb_spec j (nth c pos 0%nat)); [congruence|auto].
Qed.

Lemma firstn_seq0 i m : (i <= m)%nat -> firstn i (seq 0 m) = seq 0 i.
Proof.
  intros H. replace m with (i + (m - i))%nat by lia. rewrite seq_app, firstn_app, seq_length.
  replace (i - i)%nat with 0%nat by lia. simpl.
  rewrite firstn_all2 by (rewrite seq_length; lia). apply app_nil_r.
Qed.

(* ---------- closed form of the rows ---------- *)

Section Closed.
  Variables (sp : spacing) (n : nat) (phi_sym c : R).
  Hypothesis Hn : (1 <= n)%nat.
  Hypothesis Hc : 0 < c.
  Hypothesis Hs : 0 < phi_sym.
  Let G := grid_of_edges (theta_edges sp n) phi_sym c.
  Let K := ring_count n c.

  Definition ring_rows (i : nat) : list arow :=
    map (fun j => mk_arow i (theta_mid sp n i) (phi_mid n phi_sym c i j)) (seq 0 (K i)).

  Lemma ring_rows_length i : length (ring_rows i) = K i.
  Proof. unfold ring_rows. rewrite map_length, seq_length. auto. Qed.

  Lemma offset_ring_rows m i : (i <= m)%nat -> offset ring_rows (seq 0 m) i = off n c i.
  Proof.
    intros Hi. unfold offset, off. f_equal.
    replace (firstn i (seq 0 m)) with (seq 0 i).
    - apply map_ext. intros. apply ring_rows_length.
    - symmetry. apply firstn_seq0. lia.
  Qed.

  Lemma av_closed : g_av G = flat_map ring_rows (seq 0 (2 * n)).
  Proof.
    apply list_ext with (d := default_row).
    - unfold G. rewrite av_length by auto.
      rewrite <- offset_length, seq_length. symmetry. apply offset_ring_rows. lia.
    - intros k Hk. unfold G in *.
      destruct (av_decompose sp n phi_sym c Hn Hc k Hk) as [i [j [Hi [Hj ->]]]].
      rewrite av_row by auto.
      rewrite <- (offset_ring_rows (2 * n) i) by lia.
      rewrite flat_map_nth with (da := 0%nat); rewrite ?seq_length; auto.
      + rewrite nth_seq0 by auto. unfold ring_rows.
        rewrite nth_map_lt with (da := 0%nat) by (rewrite seq_length; auto).
        rewrite nth_seq0 by auto. auto.
      + rewrite nth_seq0 by auto. rewrite ring_rows_length. auto.
  Qed.

  Lemma av_halves : g_av G = flat_map ring_rows (seq 0 n) ++ flat_map ring_rows (seq n n).
  Proof.
    rewrite av_closed. replace (2 * n)%nat with (n + n)%nat by lia.
    rewrite seq_app, flat_map_app. auto.
  Qed.

  Lemma half_length : (length (g_av G) / 2)%nat = off n c n.
  Proof.
    unfold G. rewrite av_half by auto. rewrite Nat.mul_comm. apply Nat.div_mul. lia.
  Qed.

  Lemma upper_length : length (flat_map ring_rows (seq 0 n)) = off n c n.
  Proof. rewrite <- offset_length, seq_length. apply offset_ring_rows. lia. Qed.

  (* ---------- unique thetas ---------- *)

  Lemma ins_unique_below x l : (forall y, In y l -> x < y) -> ins_unique x l = x :: l.
  Proof.
    destruct l; simpl; auto. intros H. assert (x < r) by auto.
    destruct (Rltb x r) eqn:E; auto. apply Rltb_false in E. lra.
  Qed.

  Lemma ins_unique_same x l : ins_unique x (x :: l) = x :: l.
  Proof.
    simpl. destruct (Rltb x x) eqn:E; [apply Rltb_true in E; lra|].
    rewrite Reqb_refl. auto.
  Qed.

  Lemma np_unique_repeat x k l : (forall y, In y l -> x < y) -> (1 <= k)%nat ->
    fold_right ins_unique l (repeat x k) = x :: l.
  Proof.
    intros H Hk. destruct k; [lia|]. clear Hk. induction k.
    - simpl. apply ins_unique_below. auto.
    - change (repeat x (S (S k))) with (x :: repeat x (S k)). simpl fold_right.
      simpl in IHk. rewrite IHk. apply ins_unique_same.
  Qed.

  Lemma np_unique_blocks (f : nat -> R) (kk : nat -> nat) l :
    (forall i j, In i l -> In j l -> (i < j)%nat -> f i < f j) ->
    (forall i, In i l -> (1 <= kk i)%nat) ->
    (forall a b, (a < b < length l)%nat -> (nth a l 0 < nth b l 0)%nat) ->
    np_unique (flat_map (fun i => repeat (f i) (kk i)) l) = map f l.
  Proof.
    unfold np_unique. induction l as [|a l IH]; intros Hf Hk Hl; auto.
    simpl. rewrite fold_right_app. rewrite IH.
    - apply np_unique_repeat.
      + intros y Hy. apply in_map_iff in Hy. destruct Hy as [b [<- Hb]].
        apply Hf; simpl; auto.
        apply In_nth with (d := 0%nat) in Hb. destruct Hb as [q [Hq <-]].
        apply (Hl 0%nat (S q)). simpl. lia.
      + apply Hk; simpl; auto.
    - intros; apply Hf; simpl; auto.
    - intros; apply Hk; simpl; auto.
    - intros x y Hxy. apply (Hl (S x) (S y)). simpl. lia.
  Qed.

  Lemma theta_mid_lt i i' : (i < i' < 2 * n)%nat -> theta_mid sp n i < theta_mid sp n i'.
  Proof.
    intros H. destruct (theta_mid_inside sp n Hn i ltac:(lia)).
    destruct (theta_mid_inside sp n Hn i' ltac:(lia)).
    pose proof (theta_edges_le sp n (S i) i' Hn ltac:(lia)). lra.
  Qed.

  Lemma map_theta_ring i : map a_theta (ring_rows i) = repeat (theta_mid sp n i) (K i).
  Proof.
    unfold ring_rows. rewrite map_map. simpl.
    generalize (K i). intros k. induction k; auto.
    rewrite seq_S, map_app, IHk. simpl. rewrite <- repeat_cons. auto.
  Qed.

  Lemma map_flat_map {A B C} (f : A -> list B) (h : B -> C) l :
    map h (flat_map f l) = flat_map (fun x => map h (f x)) l.
  Proof. induction l; simpl; auto. rewrite map_app, IHl. auto. Qed.

  Lemma filter_all {A} (p : A -> bool) l : (forall x, In x l -> p x = true) -> filter p l = l.
  Proof. induction l; simpl; intros H; auto. rewrite H by auto. f_equal. apply IHl. auto. Qed.
  Lemma filter_none {A} (p : A -> bool) l : (forall x, In x l -> p x = false) -> filter p l = [].
  Proof. induction l; simpl; intros H; auto. rewrite H by auto. apply IHl. auto. Qed.

  Lemma In_ring_rows r l : In r (flat_map ring_rows l) -> exists i, In i l /\ a_theta r = theta_mid sp n i /\ a_ring r = i.
  Proof.
    intros H. apply in_flat_map in H. destruct H as [i' [H1 H2]].
    unfold ring_rows in H2. apply in_map_iff in H2. destruct H2 as [j [<- _]].
    exists i'. auto.
  Qed.

  Lemma theta_values_eq :
    np_unique (filter (fun t => Rltb t (PI / 2)) (map a_theta (g_av G))) =
    map (theta_mid sp n) (seq 0 n).
  Proof.
    rewrite av_halves, map_app, filter_app.
    rewrite filter_all.
    2:{ intros t Ht. apply in_map_iff in Ht. destruct Ht as [r [<- Hr]].
        apply In_ring_rows in Hr. destruct Hr as [i [Hi [-> _]]]. apply in_seq in Hi.
        apply Rltb_true. pose proof (theta_mid_low sp n Hn i ltac:(lia)). lra. }
    rewrite filter_none.
    2:{ intros t Ht. apply in_map_iff in Ht. destruct Ht as [r [<- Hr]].
        apply In_ring_rows in Hr. destruct Hr as [i [Hi [-> _]]]. apply in_seq in Hi.
        apply Rltb_false. pose proof (theta_mid_high sp n Hn i ltac:(lia)). lra. }
    rewrite app_nil_r, map_flat_map.
    rewrite (flat_map_ext _ _ map_theta_ring).
    apply np_unique_blocks.
    - intros i j Hi Hj Hij. apply in_seq in Hi. apply in_seq in Hj. apply theta_mid_lt. lia.
    - intros i Hi. apply in_seq in Hi. apply ring_count_pos; auto; lia.
    - intros a b Hab. rewrite seq_length in Hab. rewrite !nth_seq0; lia.
  Qed.

  Lemma edges_split : theta_edges sp n = half_edges sp n ++ map (fun t => PI - t) (rev (removelast (half_edges sp n))).
  Proof. reflexivity. Qed.

  Lemma upper_edges_eq : filter (fun t => Rleb t (PI / 2)) (theta_edges sp n) = half_edges sp n.
  Proof.
    rewrite edges_split, filter_app. rewrite filter_all, filter_none, app_nil_r; auto.
    - intros t Ht. apply in_map_iff in Ht. destruct Ht as [u [<- Hu]].
      apply in_rev in Hu. apply In_nth with (d := 0) in Hu. destruct Hu as [k [Hk <-]].
      rewrite removelast_length, half_edges_length in Hk.
      rewrite nth_removelast by (rewrite half_edges_length; lia).
      rewrite half_edges_nth by lia.
      pose proof (half_edge_lt sp n k n Hn ltac:(lia) ltac:(lia)) as H. rewrite half_edge_n in H by auto.
      apply Rleb_false. lra.
    - intros t Ht. apply In_nth with (d := 0) in Ht. destruct Ht as [k [Hk <-]].
      rewrite half_edges_length in Hk. rewrite half_edges_nth by lia.
      apply Rleb_true. destruct (Nat.eq_dec k n) as [->|Hne]; [rewrite half_edge_n by auto; lra|].
      pose proof (half_edge_lt sp n k n Hn ltac:(lia) ltac:(lia)) as H. rewrite half_edge_n in H by auto. lra.
  Qed.

  Definition dtheta_at (i : nat) : R := half_edge sp n (S i) - half_edge sp n i.

  Lemma dtheta_eq : np_diff (half_edges sp n) = map dtheta_at (seq 0 n).
  Proof.
    unfold np_diff. apply list_ext with (d := 0).
    - rewrite map2_length, removelast_length, tl_length, half_edges_length, map_length, seq_length. lia.
    - intros i Hi. rewrite map2_length, removelast_length, tl_length, half_edges_length in Hi.
      rewrite map2_nth with (da := 0) (db := 0) by (rewrite ?removelast_length, ?tl_length, half_edges_length; lia).
      rewrite nth_removelast by (rewrite half_edges_length; lia). rewrite nth_tl.
      rewrite !half_edges_nth by lia.
      rewrite nth_map_lt with (da := 0%nat) by (rewrite seq_length; lia). rewrite nth_seq0 by lia. auto.
  Qed.

  Lemma map2_map_seq {A B C} (f : A -> B -> C) (u : nat -> A) (v : nat -> B) l :
    map2 f (map u l) (map v l) = map (fun i => f (u i) (v i)) l.
  Proof. induction l; simpl; auto. f_equal. auto. Qed.

  Lemma combine_map_seq {A B} (u : nat -> A) (v : nat -> B) l :
    combine (map u l) (map v l) = map (fun i => (u i, v i)) l.
  Proof. induction l; simpl; auto. f_equal. auto. Qed.

  Lemma count_theta i : (i < 2 * n)%nat ->
    length (filter (fun r => Reqb (a_theta r) (theta_mid sp n i)) (g_av G)) = K i.
  Proof.
    intros Hi. rewrite av_closed.
    replace (2 * n)%nat with (i + (1 + (2 * n - i - 1)))%nat by lia.
    rewrite seq_app, (seq_app 1), !flat_map_app, !filter_app. simpl plus.
    rewrite (filter_none _ (flat_map ring_rows (seq 0 i))).
    2:{ intros r Hr. apply In_ring_rows in Hr. destruct Hr as [i' [Hi' [-> _]]]. apply in_seq in Hi'.
        apply Reqb_false. pose proof (theta_mid_lt i' i ltac:(lia)). lra. }
    rewrite (filter_none _ (flat_map ring_rows (seq (i + 1) (2 * n - i - 1)))).
    2:{ intros r Hr. apply In_ring_rows in Hr. destruct Hr as [i' [Hi' [-> _]]]. apply in_seq in Hi'.
        apply Reqb_false. pose proof (theta_mid_lt i i' ltac:(lia)). lra. }
    rewrite filter_all.
    2:{ intros r Hr. apply In_ring_rows in Hr. destruct Hr as [i' [Hi' [-> _]]]. apply in_seq in Hi'.
        apply Reqb_true. f_equal. lia. }
    rewrite app_nil_r. simpl. rewrite app_nil_r. apply ring_rows_length.
  Qed.

  Definition ring_power (i : nat) : R := cos (theta_mid sp n i) * dtheta_at i.

  Lemma ring_power_pos i : (i < n)%nat -> 0 < ring_power i.
  Proof.
    intros Hi. unfold ring_power. apply Rmult_lt_0_compat.
    - pose proof (theta_mid_low sp n Hn i Hi). apply cos_gt_0; lra.
    - unfold dtheta_at. pose proof (half_edge_lt sp n i (S i) Hn ltac:(lia) ltac:(lia)). lra.
  Qed.

  Lemma lambert_column_eq :
    lambert_column G = flat_map (fun i => repeat (ring_power i / INR (K i)) (K i)) (seq 0 n).
  Proof.
    unfold lambert_column. rewrite theta_values_eq.
    unfold G at 1. rewrite g_theta_intv_eq, upper_edges_eq, dtheta_eq.
    rewrite map2_map_seq. rewrite map_map.
    rewrite (map_ext_in _ K).
    2:{ intros i Hi. apply in_seq in Hi. apply count_theta. lia. }
    rewrite combine_map_seq.
    rewrite flat_map_concat_map, map_map, <- flat_map_concat_map. simpl. auto.
  Qed.

  Lemma lambert_column_length : length (lambert_column G) = off n c n.
  Proof.
    rewrite lambert_column_eq, length_flat_map. unfold off. f_equal.
    apply map_ext. intros. apply repeat_length.
  Qed.

  Lemma lambert_column_sum : rsum (lambert_column G) = rsum (map ring_power (seq 0 n)).
  Proof.
    rewrite lambert_column_eq, rsum_flat_map. apply rsum_map_ext.
    intros i Hi. apply in_seq in Hi. rewrite rsum_repeat. field.
    apply Rgt_not_eq, lt_0_INR. pose proof (ring_count_pos n c Hn Hc i ltac:(lia)). unfold K. lia.
  Qed.

  Lemma lambert_total_pos : 0 < rsum (lambert_column G).
  Proof.
    rewrite lambert_column_sum. apply rsum_pos.
    - destruct n; [lia|]. discriminate.
    - intros x Hx. apply in_map_iff in Hx. destruct Hx as [i [<- Hi]]. apply in_seq in Hi.
      apply ring_power_pos. lia.
  Qed.

  Lemma lambert_column_nth i j : (i < n)%nat -> (j < K i)%nat ->
    nth (off n c i + j) (lambert_column G) 0 = ring_power i / INR (K i).
  Proof.
    intros Hi Hj. rewrite lambert_column_eq.
    set (f := fun i => repeat (ring_power i / INR (K i)) (K i)).
    assert (Ho : offset f (seq 0 n) i = off n c i).
    { unfold offset, off. f_equal.
      replace (firstn i (seq 0 n)) with (seq 0 i).
      - apply map_ext. intros. apply repeat_length.
      - symmetry. apply firstn_seq0. lia. }
    rewrite <- Ho. rewrite flat_map_nth with (da := 0%nat); rewrite ?seq_length; auto.
    - rewrite nth_seq0 by auto. unfold f. apply nth_repeat_any. auto.
    - rewrite nth_seq0 by auto. unfold f. rewrite repeat_length. auto.
  Qed.

  Lemma lambert_column_nonneg x : In x (lambert_column G) -> 0 <= x.
  Proof.
    rewrite lambert_column_eq. intros H. apply in_flat_map in H. destruct H as [i [Hi Hx]].
    apply in_seq in Hi. apply repeat_spec in Hx. subst x.
    pose proof (ring_power_pos i ltac:(lia)). pose proof (ring_count_pos n c Hn Hc i ltac:(lia)) as Hk.
    apply Rlt_le, Rdiv_lt_0_compat; auto. apply lt_0_INR. unfold K. lia.
  Qed.
End Closed.
