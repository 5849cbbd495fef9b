(* Averages over sequences of random numbers. *)
From Coq Require Import Reals List Bool ZArith Lia Lra.
From Verif Require Import Base Lib Spec_Mean.
Import ListNotations.
Open Scope R_scope.

(* ---------- one number ---------- *)

Lemma step_integrable f a b : IsStepFun f a b -> Riemann_integrable f a b.
Proof.
  intros H eps. exists (mkStepFun H). exists (mkStepFun (StepFun_P4 a b 0)). split.
  - intros t _. cbn [fe]. unfold fct_cte. rewrite Rminus_diag_eq by reflexivity. rewrite Rabs_R0. lra.
  - rewrite StepFun_P18. rewrite Rmult_0_l, Rabs_R0. apply cond_pos.
Qed.

Definition cut (rho a b x : R) : R := if Rleb x rho then a else b.

Lemma cut_step rho a b : 0 <= rho <= 1 -> IsStepFun (cut rho a b) 0 1.
Proof.
  intros H. exists [0; rho; 1]. exists [a; b]. unfold adapted_couple. split; [|split; [|split; [|split]]].
  - intros i Hi. cbn in Hi. destruct i as [|[|i]]; cbn; try lra. lia.
  - cbn. rewrite Rmin_left; lra.
  - cbn. rewrite Rmax_right; lra.
  - reflexivity.
  - intros i Hi. cbn in Hi. intros x Hx. unfold open_interval in Hx. destruct i as [|[|i]]; cbn in *; try lia; unfold cut.
    + rewrite (proj2 (Rleb_true _ _)); lra.
    + rewrite (proj2 (Rleb_false _ _)); lra.
Qed.

Lemma mean1_ext g h m : (forall v, 0 <= v <= 1 -> g v = h v) -> mean1 g m -> mean1 h m.
Proof.
  intros E [pr Hm]. assert (pr' : Riemann_integrable h 0 1).
  { refine (@Riemann_integrable_ext g h 0 1 _ pr). intros x Hx. rewrite Rmin_left, Rmax_right in Hx by lra. now apply E. }
  exists pr'. rewrite <- Hm. symmetry. apply RiemannInt_P18; [lra|]. intros x Hx. apply E. lra.
Qed.

Lemma mean1_cut rho a b : 0 <= rho <= 1 -> mean1 (cut rho a b) (rho * a + (1 - rho) * b).
Proof.
  intros H. pose proof (step_integrable _ _ _ (cut_step rho a b H)) as pr. exists pr.
  pose proof (RiemannInt_P22 pr H) as p1. pose proof (RiemannInt_P23 pr H) as p2.
  rewrite <- (RiemannInt_P26 p1 p2 pr).
  assert (E1 : RiemannInt p1 = a * (rho - 0)).
  { rewrite <- (RiemannInt_P15 (RiemannInt_P14 0 rho a)). apply RiemannInt_P18; [lra|]. intros x Hx. unfold cut, fct_cte. rewrite (proj2 (Rleb_true _ _)); lra. }
  assert (E2 : RiemannInt p2 = b * (1 - rho)).
  { rewrite <- (RiemannInt_P15 (RiemannInt_P14 rho 1 b)). apply RiemannInt_P18; [lra|]. intros x Hx. unfold cut, fct_cte. rewrite (proj2 (Rleb_false _ _)); lra. }
  rewrite E1, E2. ring.
Qed.

Lemma mean1_const c : mean1 (fun _ => c) c.
Proof. exists (RiemannInt_P14 0 1 c). etransitivity; [exact (RiemannInt_P15 (RiemannInt_P14 0 1 c))|ring]. Qed.

Lemma mean1_affine g m c k : mean1 g m -> mean1 (fun v => c + k * g v) (c + k * m).
Proof.
  intros [pr Hm]. exists (RiemannInt_P10 k (RiemannInt_P14 0 1 c) pr).
  etransitivity; [exact (RiemannInt_P13 (RiemannInt_P14 0 1 c) pr (RiemannInt_P10 k (RiemannInt_P14 0 1 c) pr))|].
  rewrite RiemannInt_P15, Hm. ring.
Qed.

Lemma mean1_unique g h m m' : (forall v, 0 <= v < 1 -> g v = h v) -> mean1 g m -> mean1 h m' -> m = m'.
Proof. intros E [p <-] [q <-]. apply RiemannInt_P18; [lra|]. intros x Hx. apply E. lra. Qed.

(* ---------- sequences ---------- *)

Lemma before_fractions v u : 0 <= v < 1 -> fractions u -> fractions (before v u).
Proof. intros Hv Hu [|i]; cbn [before]; auto. Qed.

Lemma mean_ext n : forall f h m, (forall u, fractions u -> f u = h u) -> mean n f m -> mean n h m.
Proof.
  induction n as [|n IH]; intros f h m E M; cbn [mean] in *.
  - intros u Hu. rewrite <- E by exact Hu. auto.
  - destruct M as (g & G & M). exists g. split; [|exact M]. intros v Hv. apply (IH (fun u => f (before v u))); [|auto].
    intros u Hu. apply E. now apply before_fractions.
Qed.

(* an average is one number *)
Lemma mean_unique n : forall f m m', mean n f m -> mean n f m' -> m = m'.
Proof.
  induction n as [|n IH]; intros f m m' A B; cbn [mean] in *.
  - assert (H : fractions (fun _ => 0)) by (intros i; lra). rewrite <- (A _ H). apply B. exact H.
  - destruct A as (g & G & A), B as (g' & G' & B). apply (mean1_unique g g'); auto. intros v Hv. apply (IH (fun u => f (before v u))); auto.
Qed.

Lemma mean_affine n : forall f m c k, mean n f m -> mean n (fun u => c + k * f u) (c + k * m).
Proof.
  induction n as [|n IH]; intros f m c k M; cbn [mean] in *.
  - intros u Hu. now rewrite M.
  - destruct M as (g & G & M). exists (fun v => c + k * g v). split; [|now apply mean1_affine].
    intros v Hv. apply (IH (fun u => f (before v u))). auto.
Qed.

Lemma mean_const n c : mean n (fun _ => c) c.
Proof. induction n as [|n IH]; cbn [mean]; [reflexivity|]. exists (fun _ => c). split; [auto|apply mean1_const]. Qed.

(* of two parts that use different numbers *)
Lemma mean_apart n : forall f m p h m', mean n f m -> mean p h m' -> mean (n + p) (fun u => f u + h (fun i => u (n + i)%nat)) (m + m').
Proof.
  induction n as [|n IH]; intros f m p h m' A B.
  - cbn [Nat.add]. apply (mean_ext p (fun u => m + 1 * h u)).
    + intros u Hu. cbn [mean] in A. rewrite A by exact Hu. rewrite Rmult_1_l. reflexivity.
    + replace (m + m') with (m + 1 * m') by ring. now apply mean_affine.
  - cbn [Nat.add mean]. cbn [mean] in A. destruct A as (g & G & A). exists (fun v => g v + m'). split.
    + intros v Hv. exact (IH (fun u => f (before v u)) (g v) p h m' (G v Hv) B).
    + destruct (mean1_affine g m m' 1 A) as [pr E]. apply (mean1_ext (fun v => m' + 1 * g v)); [intros; ring|].
      exists pr. rewrite E. ring.
Qed.

(* N times the same, each with n numbers of its own *)
Lemma mean_blocks n h m : mean n h m -> forall N, mean (N * n) (fun u => rsum (map (fun k => h (fun j => u (k * n + j)%nat)) (seq 0 N))) (INR N * m).
Proof.
  intros M. induction N as [|N IH].
  - cbn [Nat.mul mean seq map rsum INR]. intros u _. ring.
  - rewrite S_INR. replace ((INR N + 1) * m) with (m + INR N * m) by ring. cbn [Nat.mul].
    apply (mean_ext _ (fun u => h u + (fun u' => rsum (map (fun k => h (fun j => u' (k * n + j)%nat)) (seq 0 N))) (fun i => u (n + i)%nat))).
    + intros u _. cbn [seq map rsum Nat.mul Nat.add]. f_equal. rewrite <- seq_shift, map_map. f_equal. apply map_ext. intros k. f_equal.
      apply FunctionalExtensionality.functional_extensionality. intros j. f_equal. cbn [Nat.mul]. lia.
    + exact (mean_apart n h m (N * n) _ (INR N * m) M IH).
Qed.

(* a number that decides between two continuations *)
Lemma mean_cut n f f1 f2 rho m1 m2 : 0 <= rho <= 1 -> mean n f1 m1 -> (rho < 1 -> mean n f2 m2) ->
  (forall v u, 0 <= v < 1 -> fractions u -> f (before v u) = if Rleb v rho then f1 u else f2 u) ->
  mean (S n) f (rho * m1 + (1 - rho) * m2).
Proof.
  intros H M1 M2 E. cbn [mean]. exists (cut rho m1 m2). split; [|now apply mean1_cut].
  intros v Hv. unfold cut. destruct (Rleb v rho) eqn:L.
  - apply (mean_ext n f1); [|exact M1]. intros u Hu. rewrite E, L by auto. reflexivity.
  - apply Rleb_false in L. apply (mean_ext n f2); [|apply M2; lra]. intros u Hu. rewrite E by auto. rewrite (proj2 (Rleb_false _ _)) by exact L. reflexivity.
Qed.
