(* A single channel of light through the pass loop. *)
From Coq Require Import Reals List ZArith Bool Lia Lra.
From Verif Require Import Base Lib Model_Angles Spec_Angles Model_Ideal Model_MatMul Spec_Matrix Spec_MatMul Spec_Series Spec_Slab.
Import ListNotations.
Open Scope R_scope.

(* power x in channel q of h *)
Definition one_channel (h q : nat) (x : R) : list R := map (fun k => if Nat.eqb k q then x else 0) (seq 0 h).

Lemma oc_len h q x : length (one_channel h q x) = h.
Proof. unfold one_channel. rewrite map_length, seq_length. auto. Qed.

Lemma oc_nth h q x k : (k < h)%nat -> nth k (one_channel h q x) 0 = if Nat.eqb k q then x else 0.
Proof.
  intros Hk. unfold one_channel. rewrite nth_map_lt with (da := 0%nat) by (rewrite seq_length; auto).
  rewrite seq_nth by auto. reflexivity.
Qed.

Lemma oc_eq v h q x : length v = h -> (forall k, (k < h)%nat -> nth k v 0 = if Nat.eqb k q then x else 0) -> v = one_channel h q x.
Proof.
  intros L H. apply (nth_ext _ _ 0 0); [rewrite oc_len; auto|]. intros k Hk. rewrite H, oc_nth by lia. auto.
Qed.

Lemma sum_single (f : nat -> R) q x n : (q < n)%nat ->
  rsum (map (fun k => f k * (if Nat.eqb k q then x else 0)) (seq 0 n)) = f q * x.
Proof.
  intros Hq. rewrite (rsum_map_single _ n q Hq).
  - rewrite Nat.eqb_refl. auto.
  - intros j Hj Hne. destruct (Nat.eqb_spec j q); [congruence|lra].
Qed.

Lemma oc_sum h q x : (q < h)%nat -> rsum (one_channel h q x) = x.
Proof.
  intros Hq. unfold one_channel. rewrite (rsum_map_single _ h q Hq); rewrite ?Nat.eqb_refl; auto.
  intros j _ Hne. destruct (Nat.eqb_spec j q); congruence.
Qed.

Lemma times_oc m h q x : (q < h)%nat -> times m (one_channel h q x) = map (fun row => nth q row 0 * x) m.
Proof.
  intros Hq. unfold times. rewrite oc_len. apply map_ext. intros row.
  rewrite <- (sum_single (fun k => nth k row 0) q x h Hq). f_equal. apply map_ext_in. intros k Hk. apply in_seq in Hk.
  rewrite oc_nth by lia. auto.
Qed.

Lemma into_oc m h q x : (q < h)%nat -> into m (one_channel h q x) = col_total m q * x.
Proof.
  intros Hq. unfold into, col_total. rewrite times_oc by auto.
  induction m as [|row m IH]; cbn [map rsum]; [lra|]. rewrite IH. lra.
Qed.

(* a matrix with a single entry in column q sends one channel into one channel *)
Lemma times_one m h q x r y : (q < h)%nat -> length m = h ->
  (forall r', (r' < h)%nat -> entry m r' q = if Nat.eqb r' r then y else 0) ->
  times m (one_channel h q x) = one_channel h r (y * x).
Proof.
  intros Hq L H. rewrite times_oc by auto. apply oc_eq; [rewrite map_length; auto|]. intros k Hk.
  rewrite nth_map_lt with (da := []) by lia. specialize (H k Hk). unfold entry in H. rewrite H.
  destruct (Nat.eqb k r); lra.
Qed.

Lemma rsum_scale c (f : nat -> R) l : rsum (map (fun k => c * f k) l) = c * rsum (map f l).
Proof. induction l; cbn [map rsum]; [lra|]. rewrite IHl. lra. Qed.

Lemma geometric rho n : (1 - rho) * rsum (map (fun k => rho ^ k) (seq 0 n)) = 1 - rho ^ n.
Proof.
  induction n; [cbn; lra|]. rewrite seq_S, map_app, rsum_app. cbn [map rsum].
  rewrite Rmult_plus_distr_l, IHn. cbn. lra.
Qed.

Section Slab.
  Variables (g : grid) (h : nat) (u d : list (list R)) (alphas : list R) (thick : R) (f0 b0 f1 : stored) (w : nat).
  Variables (k0 q j : nat) (r0 t0 rb tb r1 t1 : R).
  Hypothesis Hk : (k0 < h)%nat.
  Hypothesis Hq : (q < h)%nat.
  Hypothesis Hj : (j < h)%nat.
  Let D := exp (- (nth w alphas 0 * thick / Rabs (cos (ray_theta g j)))).

  (* shapes *)
  Hypothesis L0 : length (downward h w f0) = h.
  Hypothesis L1 : length (upward h w f1) = h.
  Hypothesis Lb : length (downward h w b0) = h.
  Hypothesis Lu : length u = h.
  Hypothesis Ld : length d = h.
  (* columns *)
  Hypothesis F0 : forall r, (r < h)%nat -> entry (downward h w f0) r k0 = if Nat.eqb r q then t0 else 0.
  Hypothesis F0r : col_total (upward h w f0) k0 = r0.
  Hypothesis Hd : forall r, (r < h)%nat -> entry d r q = if Nat.eqb r j then 1 else 0.
  Hypothesis Hu : forall r, (r < h)%nat -> entry u r j = if Nat.eqb r q then 1 else 0.
  Hypothesis F1 : forall r, (r < h)%nat -> entry (upward h w f1) r j = if Nat.eqb r j then r1 else 0.
  Hypothesis F1t : col_total (downward h w f1) j = t1.
  Hypothesis Fb : forall r, (r < h)%nat -> entry (downward h w b0) r q = if Nat.eqb r q then rb else 0.
  Hypothesis Fbt : col_total (upward h w b0) q = tb.

  Let row := one_channel h k0 1.
  Let rho := round D r1 rb.

  Lemma across_oc x : across g h alphas thick w (one_channel h j x) = one_channel h j (D * x).
  Proof.
    apply oc_eq; [unfold across; rewrite map_length, seq_length; auto|]. intros k Hk'. unfold across.
    rewrite nth_map_lt with (da := 0%nat) by (rewrite seq_length; auto). rewrite seq_nth by auto. cbn [Nat.add].
    rewrite oc_nth by auto. destruct (Nat.eqb_spec k j) as [->|]; [|lra]. unfold D. lra.
  Qed.

  Lemma down_oc x : times d (one_channel h q x) = one_channel h j x.
  Proof. rewrite (times_one d h q x j 1) by auto. f_equal. lra. Qed.
  Lemma up_oc x : times u (one_channel h j x) = one_channel h q x.
  Proof. rewrite (times_one u h j x q 1) by auto. f_equal. lra. Qed.

  Lemma inside_oc k : inside g h u d alphas thick f0 b0 f1 row w k = one_channel h q (t0 * rho ^ k).
  Proof.
    induction k; cbn [inside].
    - unfold row. rewrite (times_one _ h k0 1 q t0) by auto. auto.
    - rewrite IHk, down_oc, across_oc. rewrite (times_one _ h j _ j r1) by auto. rewrite across_oc, up_oc.
      rewrite (times_one _ h q _ q rb) by auto. f_equal. unfold rho, round. cbn [pow]. lra.
  Qed.

  Lemma back_oc k : at_back g h u d alphas thick f0 b0 f1 row w k = one_channel h j (D * (t0 * rho ^ k)).
  Proof. unfold at_back. rewrite inside_oc, down_oc, across_oc. auto. Qed.
  Lemma off_oc k : off_back g h u d alphas thick f0 b0 f1 row w k = one_channel h j (r1 * (D * (t0 * rho ^ k))).
  Proof. unfold off_back. rewrite back_oc. rewrite (times_one _ h j _ j r1) by auto. auto. Qed.
  Lemma front_oc k : at_front g h u d alphas thick f0 b0 f1 row w k = one_channel h q (D * (r1 * (D * (t0 * rho ^ k)))).
  Proof. unfold at_front. rewrite off_oc, across_oc, up_oc. auto. Qed.

  Lemma slab_series N : rho <> 1 -> exists left, left = rsum (inside g h u d alphas thick f0 b0 f1 row w N) /\ left = t0 * rho ^ N /\
    series_R g h u d alphas thick f0 b0 f1 row w N + left * (D * r1 * D * tb / (1 - rho)) = slab_R r0 t0 rb tb r1 D /\
    series_T g h u d alphas thick f0 b0 f1 row w N + left * (D * t1 / (1 - rho)) = slab_T t0 rb r1 t1 D /\
    series_A_bulk g h u d alphas thick f0 b0 f1 row w N + left * (((1 - D) + D * r1 * (1 - D)) / (1 - rho)) = slab_A t0 rb r1 D.
  Proof.
    intros Hr. exists (t0 * rho ^ N). split; [rewrite inside_oc, oc_sum; auto|]. split; auto.
    pose proof (geometric rho N) as G. set (S := rsum (map (fun k => rho ^ k) (seq 0 N))) in *.
    assert (ES : S = (1 - rho ^ N) / (1 - rho)) by (rewrite <- G; field; lra).
    split; [|split].
    - unfold series_R, over, slab_R, row. rewrite into_oc, F0r by auto.
      rewrite (map_ext _ (fun k => (tb * (D * (r1 * (D * t0)))) * rho ^ k)).
      2:{ intros k. fold row. rewrite front_oc, into_oc, Fbt by auto. lra. }
      rewrite (rsum_scale (tb * (D * (r1 * (D * t0)))) (fun k => rho ^ k)). fold S. rewrite ES. fold rho. field. lra.
    - unfold series_T, over, slab_T.
      rewrite (map_ext _ (fun k => (t1 * (D * t0)) * rho ^ k)).
      2:{ intros k. rewrite back_oc, into_oc, F1t by auto. lra. }
      rewrite (rsum_scale (t1 * (D * t0)) (fun k => rho ^ k)). fold S. rewrite ES. fold rho. field. lra.
    - unfold series_A_bulk, over, slab_A.
      rewrite (map_ext _ (fun k => (t0 * ((1 - D) + D * r1 * (1 - D))) * rho ^ k)).
      2:{ intros k. rewrite inside_oc, down_oc, back_oc, off_oc, across_oc, !oc_sum by auto. lra. }
      rewrite (rsum_scale (t0 * ((1 - D) + D * r1 * (1 - D))) (fun k => rho ^ k)). fold S. rewrite ES. fold rho. field. lra.
  Qed.
End Slab.
