(* Functions of random numbers that depend on them, one after the other, through finitely many comparisons. *)
From Coq Require Import Reals List Bool ZArith Lia Lra FunctionalExtensionality.
From Verif Require Import Base Lib Spec_Mean Proof_Mean.
Import ListNotations.
Open Scope R_scope.

(* ---------- more about averages ---------- *)

Lemma mean1_plus g h a b : mean1 g a -> mean1 h b -> mean1 (fun v => g v + h v) (a + b).
Proof.
  intros [p1 <-] [p2 <-]. apply (mean1_ext (fun v => g v + 1 * h v)); [intros; ring|].
  exists (RiemannInt_P10 1 p1 p2). rewrite (RiemannInt_P13 p1 p2 (RiemannInt_P10 1 p1 p2)). ring.
Qed.
Lemma mean1_le g h a b : (forall v, 0 <= v < 1 -> g v <= h v) -> mean1 g a -> mean1 h b -> a <= b.
Proof. intros H [p1 <-] [p2 <-]. apply RiemannInt_P19; [lra|]. intros x Hx. apply H. lra. Qed.

Lemma mean_plus n : forall f h a b, mean n f a -> mean n h b -> mean n (fun u => f u + h u) (a + b).
Proof.
  induction n as [|n IH]; intros f h a b A B; cbn [mean] in *.
  - intros u Hu. now rewrite A, B.
  - destruct A as (g & G & A), B as (g' & G' & B). exists (fun v => g v + g' v). split; [|now apply mean1_plus].
    intros v Hv. apply (IH (fun u => f (before v u)) (fun u => h (before v u))); auto.
Qed.
Lemma mean_le n : forall f h a b, (forall u, fractions u -> f u <= h u) -> mean n f a -> mean n h b -> a <= b.
Proof.
  induction n as [|n IH]; intros f h a b H A B; cbn [mean] in *.
  - assert (F : fractions (fun _ => 0)) by (intros i; lra). rewrite <- (A _ F), <- (B _ F). auto.
  - destruct A as (g & G & A), B as (g' & G' & B). apply (mean1_le g g'); auto. intros v Hv.
    apply (IH (fun u => f (before v u)) (fun u => h (before v u))); auto. intros u Hu. apply H. now apply before_fractions.
Qed.

(* products of parts that use different numbers *)
Lemma mean_product n : forall f m p h m', mean n f m -> mean p h m' -> mean (n + p) (fun u => f u * h (fun i => u (n + i)%nat)) (m * m').
Proof.
  induction n as [|n IH]; intros f m p h m' A B.
  - cbn [Nat.add]. apply (mean_ext p (fun u => 0 + m * h u)).
    + intros u Hu. cbn [mean] in A. rewrite A by exact Hu. rewrite Rplus_0_l. reflexivity.
    + replace (m * m') with (0 + m * m') by ring. now apply mean_affine.
  - cbn [Nat.add mean] in *. destruct A as (g & G & A). exists (fun v => 0 + m' * g v). split.
    + intros v Hv. replace (0 + m' * g v) with (g v * m') by ring.
      apply (mean_ext (n + p) (fun u => f (before v u) * h (fun i => u (n + i)%nat))); [reflexivity|]. apply (IH (fun u => f (before v u))); auto.
    + replace (m * m') with (0 + m' * m) by ring. now apply mean1_affine.
Qed.
(* of a part that uses the first numbers, or the later ones *)
Lemma mean_first n p f m : mean n f m -> mean (n + p) f m.
Proof.
  intros A. pose proof (mean_product n f m p (fun _ => 1) 1 A (mean_const p 1)) as M. rewrite Rmult_1_r in M.
  apply (mean_ext _ (fun u => f u * 1)); [intros; ring|exact M].
Qed.
Lemma mean_later n p h m : mean p h m -> mean (n + p) (fun u => h (fun i => u (n + i)%nat)) m.
Proof.
  intros A. pose proof (mean_product n (fun _ => 1) 1 p h m (mean_const n 1) A) as M. rewrite Rmult_1_l in M.
  apply (mean_ext _ (fun u => 1 * h (fun i => u (n + i)%nat))); [intros; ring|exact M].
Qed.

Definition cut3 (r1 r2 a b c : R) : R -> R := fun v => if Rleb v r1 then a else if Rleb v r2 then b else c.
Lemma mean1_cut3 r1 r2 a b c : 0 <= r1 -> r1 <= r2 -> r2 <= 1 -> mean1 (cut3 r1 r2 a b c) (r1 * a + (r2 - r1) * b + (1 - r2) * c).
Proof.
  intros H1 H2 H3. pose proof (mean1_plus _ _ _ _ (mean1_cut r1 (a - b) 0 ltac:(lra)) (mean1_cut r2 b c ltac:(lra))) as M.
  replace (r1 * a + (r2 - r1) * b + (1 - r2) * c) with (r1 * (a - b) + (1 - r1) * 0 + (r2 * b + (1 - r2) * c)) by ring.
  revert M. apply mean1_ext. intros v Hv. unfold cut3, cut. destruct (Rleb v r1) eqn:E1; destruct (Rleb v r2) eqn:E2; try ring.
  exfalso. apply Rleb_true in E1. apply Rleb_false in E2. lra.
Qed.

(* ---------- trees ---------- *)

Fixpoint tree {A} (n : nat) (f : (nat -> R) -> A) : Prop :=
  match n with
  | O => exists a, forall u, fractions u -> f u = a
  | S k => exists r1 r2 f1 f2 f3, (0 <= r1 /\ r1 <= r2 /\ r2 <= 1) /\ tree k f1 /\ tree k f2 /\ tree k f3 /\
      forall v u, 0 <= v < 1 -> fractions u -> f (before v u) = if Rleb v r1 then f1 u else if Rleb v r2 then f2 u else f3 u
  end.

Lemma tree_mean n : forall f : (nat -> R) -> R, tree n f -> exists m, mean n f m.
Proof.
  induction n as [|n IH]; intros f T; cbn [tree mean] in *.
  - destruct T as [a T]. exists a. exact T.
  - destruct T as (r1 & r2 & f1 & f2 & f3 & (H1 & H2 & H3) & T1 & T2 & T3 & E).
    destruct (IH _ T1) as [m1 M1], (IH _ T2) as [m2 M2], (IH _ T3) as [m3 M3].
    exists (r1 * m1 + (r2 - r1) * m2 + (1 - r2) * m3). exists (cut3 r1 r2 m1 m2 m3). split; [|now apply mean1_cut3].
    intros v Hv. unfold cut3. apply (mean_ext n (fun u => if Rleb v r1 then f1 u else if Rleb v r2 then f2 u else f3 u)); [intros u Hu; symmetry; now apply E|].
    destruct (Rleb v r1); [exact M1|]. destruct (Rleb v r2); [exact M2|exact M3].
Qed.

Lemma tree_ext {A} n : forall f g : (nat -> R) -> A, (forall u, fractions u -> f u = g u) -> tree n f -> tree n g.
Proof.
  destruct n as [|n]; intros f g H T; cbn [tree] in *.
  - destruct T as [a T]. exists a. intros u Hu. rewrite <- H by exact Hu. auto.
  - destruct T as (r1 & r2 & f1 & f2 & f3 & HR & T1 & T2 & T3 & E). exists r1, r2, f1, f2, f3. split; [exact HR|]. split; [exact T1|]. split; [exact T2|]. split; [exact T3|].
    intros v u Hv Hu. rewrite <- H by (now apply before_fractions). auto.
Qed.

Lemma tree_const {A} n (a : A) : tree n (fun _ => a).
Proof.
  induction n as [|n IH]; cbn [tree]; [now exists a|]. exists 0, 0, (fun _ => a), (fun _ => a), (fun _ => a). split; [lra|]. repeat (split; [exact IH|]).
  intros v u _ _. destruct (Rleb v 0); reflexivity.
Qed.

Lemma tree_map {A B} (g : A -> B) n : forall f, tree n f -> tree n (fun u => g (f u)).
Proof.
  induction n as [|n IH]; intros f T; cbn [tree] in *.
  - destruct T as [a T]. exists (g a). intros u Hu. now rewrite T.
  - destruct T as (r1 & r2 & f1 & f2 & f3 & HR & T1 & T2 & T3 & E). exists r1, r2, (fun u => g (f1 u)), (fun u => g (f2 u)), (fun u => g (f3 u)).
    split; [exact HR|]. repeat (split; [apply IH; assumption|]). intros v u Hv Hu. rewrite E by assumption. destruct (Rleb v r1); [|destruct (Rleb v r2)]; reflexivity.
Qed.

Lemma tree_apart {A B C} (F : A -> B -> C) n : forall p f h, tree n f -> tree p h -> tree (n + p) (fun u => F (f u) (h (fun i => u (n + i)%nat))).
Proof.
  induction n as [|n IH]; intros p f h T1 T2.
  - cbn [tree Nat.add] in *. destruct T1 as [a T1]. apply (tree_ext p (fun u => F a (h u))); [intros u Hu; now rewrite T1|]. now apply (tree_map (F a)).
  - cbn [tree Nat.add] in *. destruct T1 as (r1 & r2 & f1 & f2 & f3 & HR & A1 & A2 & A3 & E).
    exists r1, r2, (fun u => F (f1 u) (h (fun i => u (n + i)%nat))), (fun u => F (f2 u) (h (fun i => u (n + i)%nat))), (fun u => F (f3 u) (h (fun i => u (n + i)%nat))).
    split; [exact HR|]. repeat (split; [apply IH; assumption|]). intros v u Hv Hu. rewrite E by assumption. cbn [before].
    destruct (Rleb v r1); [|destruct (Rleb v r2)]; reflexivity.
Qed.

Lemma tree_more {A} n p (f : (nat -> R) -> A) : (n <= p)%nat -> tree n f -> tree p f.
Proof.
  intros H T. replace p with (n + (p - n))%nat by lia. apply (tree_apart (fun a (_ : unit) => a) n (p - n) f (fun _ => tt)); [exact T|apply tree_const].
Qed.

(* comparisons with any numbers *)
Lemma tree_choose {A} n (f f1 f2 f3 : (nat -> R) -> A) r1 r2 : tree n f1 -> tree n f2 -> tree n f3 ->
  (forall v u, 0 <= v < 1 -> fractions u -> f (before v u) = if Rleb v r1 then f1 u else if Rleb v r2 then f2 u else f3 u) -> tree (S n) f.
Proof.
  intros T1 T2 T3 E. cbn [tree].
  assert (S : forall r, r < 0 \/ 0 <= r <= 1 \/ 1 < r) by (intros r; lra).
  assert (L : forall v r, r < 0 -> 0 <= v < 1 -> Rleb v r = false) by (intros v r Hr Hv; destruct (Rleb v r) eqn:Q; auto; apply Rleb_true in Q; lra).
  assert (H : forall v r, 1 <= r -> 0 <= v < 1 -> Rleb v r = true) by (intros v r Hr Hv; destruct (Rleb v r) eqn:Q; auto; apply Rleb_false in Q; lra).
  destruct (S r1) as [S1|[S1|S1]].
  - destruct (S r2) as [S2|[S2|S2]].
    + exists 1, 1, f3, f3, f3. split; [lra|]. repeat (split; [assumption|]). intros v u Hv Hu. rewrite E by assumption. rewrite !L, H by (auto; lra). reflexivity.
    + exists r2, 1, f2, f3, f3. split; [lra|]. repeat (split; [assumption|]). intros v u Hv Hu. rewrite E by assumption. rewrite L by auto. destruct (Rleb v r2); auto. destruct (Rleb v 1); auto.
    + exists 1, 1, f2, f2, f2. split; [lra|]. repeat (split; [assumption|]). intros v u Hv Hu. rewrite E by assumption. rewrite L by auto. rewrite !H by (auto; lra). reflexivity.
  - destruct (Rle_lt_dec r2 r1) as [S2|S2].
    + exists r1, 1, f1, f3, f3. split; [lra|]. repeat (split; [assumption|]). intros v u Hv Hu. rewrite E by assumption. destruct (Rleb v r1) eqn:Q; auto.
      destruct (Rleb v r2) eqn:Q2; [apply Rleb_true in Q2; apply Rleb_false in Q; lra|]. destruct (Rleb v 1); auto.
    + destruct (Rle_lt_dec r2 1) as [S3|S3].
      * exists r1, r2, f1, f2, f3. split; [lra|]. repeat (split; [assumption|]). exact E.
      * exists r1, 1, f1, f2, f2. split; [lra|]. repeat (split; [assumption|]). intros v u Hv Hu. rewrite E by assumption. destruct (Rleb v r1) eqn:Q; auto. rewrite !H by (auto; lra). reflexivity.
  - exists 1, 1, f1, f1, f1. split; [lra|]. repeat (split; [assumption|]). intros v u Hv Hu. rewrite E by assumption. rewrite !H by (auto; lra). reflexivity.
Qed.

(* ---------- independent parts ---------- *)

Lemma tree_blocks {A} n (h : nat -> (nat -> R) -> A) : forall N s, (forall k, tree n (h k)) ->
  tree (N * n) (fun u => map (fun k => h (s + k)%nat (fun j => u (k * n + j)%nat)) (seq 0 N)).
Proof.
  induction N as [|N IH]; intros s H.
  - cbn [Nat.mul seq map]. apply tree_const.
  - cbn [Nat.mul]. apply (tree_ext (n + N * n) (fun u => h s u :: (fun u' => map (fun k => h (S s + k)%nat (fun j => u' (k * n + j)%nat)) (seq 0 N)) (fun i => u (n + i)%nat))).
    + intros u _. cbn [seq map]. rewrite <- seq_shift, map_map. cbn beta. f_equal; [f_equal; lia|].
      apply map_ext. intros k. f_equal; [lia|]. apply functional_extensionality. intros j. f_equal. lia.
    + apply (tree_apart (fun a l => a :: l) n (N * n) (h s) (fun u' => map (fun k => h (S s + k)%nat (fun j => u' (k * n + j)%nat)) (seq 0 N))); [apply H|now apply IH].
Qed.

(* variance *)
Lemma spread n (h : nat -> (nat -> R) -> R) (m : nat -> R) : forall N s,
  (forall k, tree n (h k)) -> (forall k, (k < s + N)%nat -> mean n (h k) (m k)) -> (forall k u, fractions u -> 0 <= h k u <= 1) ->
  mean (N * n) (fun u => rsum (map (fun k => h (s + k)%nat (fun j => u (k * n + j)%nat) - m (s + k)%nat) (seq 0 N))) 0 /\
  exists v, mean (N * n) (fun u => rsum (map (fun k => h (s + k)%nat (fun j => u (k * n + j)%nat) - m (s + k)%nat) (seq 0 N)) ^ 2) v /\ v <= INR N / 4.
Proof.
  intros N. induction N as [|N IH]; intros s HT HM HR.
  - cbn [Nat.mul seq map rsum mean INR]. split; [reflexivity|]. exists 0. split; [intros; ring|lra].
  - pose proof (HM s ltac:(lia)) as HMs. destruct (IH (S s) HT ltac:(intros; apply HM; lia) HR) as (M & v & V & B). set (S' := fun u => rsum (map (fun k => h (S s + k)%nat (fun j => u (k * n + j)%nat) - m (S s + k)%nat) (seq 0 N))) in *.
    assert (E : forall u : nat -> R, rsum (map (fun k => h (s + k)%nat (fun j => u (k * n + j)%nat) - m (s + k)%nat) (seq 0 (S N))) = (h s u - m s) + S' (fun i => u (n + i)%nat)).
    { intros u. cbn [seq map rsum]. rewrite <- seq_shift, map_map. f_equal.
      - rewrite Nat.add_0_r. reflexivity.
      - unfold S'. f_equal. apply map_ext. intros k. replace (s + S k)%nat with (S s + k)%nat by lia. do 2 f_equal. apply functional_extensionality. intros j. f_equal. lia. }
    assert (Mh : mean n (fun u => h s u - m s) 0).
    { apply (mean_ext n (fun u => - m s + 1 * h s u)); [intros; ring|]. replace 0 with (- m s + 1 * m s) by ring. apply mean_affine, HMs. }
    cbn [Nat.mul]. split.
    + apply (mean_ext _ (fun u => (h s u - m s) + S' (fun i => u (n + i)%nat))); [intros u _; symmetry; apply E|].
      replace 0 with (0 + 0) by ring. now apply mean_apart.
    + destruct (tree_mean n (fun u => (h s u - m s) ^ 2)) as [q Q]; [apply (tree_map (fun x => (x - m s) ^ 2)), HT|].
      exists (q + 2 * (0 * 0) + v). split.
      * apply (mean_ext _ (fun u => ((h s u - m s) ^ 2 + (0 + 2 * ((h s u - m s) * S' (fun i => u (n + i)%nat)))) + (fun u' => S' u' ^ 2) (fun i => u (n + i)%nat))).
        { intros u _. rewrite E. cbn beta. ring. }
        apply mean_plus; [|apply (mean_later n (N * n) (fun u' => S' u' ^ 2) v V)].
        apply mean_plus; [now apply mean_first|]. replace (2 * (0 * 0)) with (0 + 2 * (0 * 0)) by ring. apply mean_affine. now apply mean_product.
      * rewrite S_INR. assert (Hq : q <= 1 / 4); [|lra].
        assert (Q2 : q <= m s ^ 2 + (1 - 2 * m s) * m s).
        { apply (mean_le n (fun u => (h s u - m s) ^ 2) (fun u => m s ^ 2 + (1 - 2 * m s) * h s u)); [|exact Q|apply mean_affine, HMs].
          intros u Hu. destruct (HR s u Hu) as [A1 A2]. assert (0 <= h s u * (1 - h s u)) by (apply Rmult_le_pos; lra).
          replace ((h s u - m s) ^ 2) with (m s ^ 2 + (1 - 2 * m s) * h s u - h s u * (1 - h s u)) by ring. lra. }
        pose proof (pow2_ge_0 (m s - 1 / 2)) as P. replace (m s ^ 2 + (1 - 2 * m s) * m s) with (1 / 4 - (m s - 1 / 2) ^ 2) in Q2 by field. lra.
Qed.

(* Chebyshev *)
Lemma far_off n N (h : nat -> (nat -> R) -> R) : (0 < N)%nat -> (forall k, tree n (h k)) -> (forall k u, fractions u -> 0 <= h k u <= 1) ->
  let f := fun u : nat -> R => / INR N * rsum (map (fun k => h k (fun j => u (k * n + j)%nat)) (seq 0 N)) in
  exists m, mean (N * n) f m /\ forall eps x d, 0 < eps -> Rabs (m - x) <= d ->
    exists p, mean (N * n) (fun u => if Rleb (eps + d) (Rabs (f u - x)) then 1 else 0) p /\ 0 <= p <= 1 / (4 * INR N * eps ^ 2).
Proof.
  intros HN HT HR f. assert (NP : 0 < INR N) by now apply lt_0_INR.
  assert (CH : forall K, exists mk : nat -> R, forall k, (k < K)%nat -> mean n (h k) (mk k)).
  { induction K as [|K [mk IH]]; [exists (fun _ => 0); intros; lia|]. destruct (tree_mean n (h K) (HT K)) as [x X].
    exists (fun k => if Nat.eqb k K then x else mk k). intros k Hk. destruct (Nat.eqb k K) eqn:E; [apply Nat.eqb_eq in E; now subst|apply Nat.eqb_neq in E; apply IH; lia]. }
  destruct (CH N) as [mk HM]. set (m := / INR N * rsum (map mk (seq 0 N))). exists m.
  destruct (spread n h mk N 0 HT HM HR) as (M & v & V & B). cbn [Nat.add] in M, V.
  assert (E : forall u, f u - m = / INR N * rsum (map (fun k => h k (fun j => u (k * n + j)%nat) - mk k) (seq 0 N))).
  { intros u. unfold f, m. assert (L : forall (a b : nat -> R) l, rsum (map (fun k => a k - b k) l) = rsum (map a l) - rsum (map b l)) by (induction l as [|x l IH]; cbn [map rsum]; [ring|rewrite IH; ring]).
    rewrite L. ring. }
  assert (TF : tree (N * n) f).
  { apply (tree_map (fun l => / INR N * rsum l)). exact (tree_blocks n h N 0 HT). }
  split.
  - apply (mean_ext _ (fun u => m + / INR N * rsum (map (fun k => h k (fun j => u (k * n + j)%nat) - mk k) (seq 0 N)))).
    + intros u _. rewrite <- E. ring.
    + pose proof (mean_affine _ _ _ m (/ INR N) M) as Q. rewrite Rmult_0_r, Rplus_0_r in Q. exact Q.
  - intros eps x0 d He Hd. destruct (tree_mean (N * n) (fun u => if Rleb (eps + d) (Rabs (f u - x0)) then 1 else 0)) as [p P]; [exact (tree_map (fun x => if Rleb (eps + d) (Rabs (x - x0)) then 1 else 0) _ f TF)|].
    exists p. split; [exact P|]. split.
    + apply (mean_le (N * n) (fun _ => 0) (fun u => if Rleb (eps + d) (Rabs (f u - x0)) then 1 else 0)); [|apply mean_const|exact P]. intros u _. destruct (Rleb _ _); lra.
    + apply Rle_trans with (0 + / (INR N * eps) ^ 2 * v).
      * apply (mean_le (N * n) (fun u => if Rleb (eps + d) (Rabs (f u - x0)) then 1 else 0)
          (fun u => 0 + / (INR N * eps) ^ 2 * rsum (map (fun k => h k (fun j => u (k * n + j)%nat) - mk k) (seq 0 N)) ^ 2)); [|exact P|now apply mean_affine].
        intros u _. specialize (E u). set (x := rsum (map (fun k => h k (fun j => u (k * n + j)%nat) - mk k) (seq 0 N))) in *. rewrite Rplus_0_l.
        assert (D : 0 < INR N * eps) by (apply Rmult_lt_0_compat; lra). assert (D2 : 0 < / (INR N * eps) ^ 2) by (apply Rinv_0_lt_compat, pow_lt; lra).
        destruct (Rleb (eps + d) (Rabs (f u - x0))) eqn:Q; [|apply Rmult_le_pos; [lra|apply pow2_ge_0]]. apply Rleb_true in Q.
        assert (Q1 : eps <= Rabs (/ INR N * x)).
        { rewrite <- E. pose proof (Rabs_triang (f u - m) (m - x0)) as TR. replace (f u - m + (m - x0)) with (f u - x0) in TR by ring. lra. }
        clear Q. rename Q1 into Q.
        assert (Q2 : INR N * eps <= Rabs x).
        { rewrite Rabs_mult, (Rabs_right (/ INR N)) in Q by (left; now apply Rinv_0_lt_compat).
          replace (Rabs x) with (INR N * (/ INR N * Rabs x)) by (field; lra). apply Rmult_le_compat_l; lra. }
        rewrite <- (Rinv_l ((INR N * eps) ^ 2)) by (apply pow_nonzero; lra). apply Rmult_le_compat_l; [lra|]. rewrite <- (pow2_abs x). apply pow_incr. lra.
      * rewrite Rplus_0_l. replace (1 / (4 * INR N * eps ^ 2)) with (/ (INR N * eps) ^ 2 * (INR N / 4)) by (field; lra).
        apply Rmult_le_compat_l; [left; apply Rinv_0_lt_compat, pow_lt, Rmult_lt_0_compat; lra|exact B].
Qed.
