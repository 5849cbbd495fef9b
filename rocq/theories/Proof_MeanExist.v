(* The balance of power in a planar structure of absorbing layers has one solution, and it conserves power. *)
From Coq Require Import Reals List Bool ZArith Lia Lra.
From Verif Require Import Base Lib Model_Angles Model_Optics Model_OpticsC Model_RayIface Model_RayStack Model_Surface Model_RTStruct Model_Trace
  Model_StackRay Model_StackCalc
  Spec_Optics Spec_OpticsC Spec_RayIface Spec_RayStack Spec_StackRay Spec_StackCalc Spec_Mean
  Proof_MeanRay.
Import ListNotations.
Open Scope R_scope.
Local Notation length := List.length.

Section Exist.
  Variables (mats : list material) (widths : list R) (tables : list (option (Z -> R -> table_entry))) (o : rt_options) (c : R).
  Let N := Z.of_nat (length widths).
  Let rho := reflectance mats tables o.
  Let tau := passed mats tables o.
  Let tr := transmittance mats widths o.
  Let hd m d : Prop := heads widths m d.
  Hypothesis Hparts : forall m d, heads widths m d -> lit mats o m -> 0 <= rho m d /\ 0 <= tau m d /\ rho m d + tau m d <= 1.
  Hypothesis Hnext : forall m d, heads widths m d -> lit mats o m -> 0 < tau m d -> lit mats o (m + d).
  Hypothesis Hc : 0 < c.
  Hypothesis Hloss : forall m, (1 <= m <= N)%Z -> lit mats o m -> c <= si_loss mats widths o m.
  Let tr_ok m (H : (1 <= m <= N)%Z) (L : lit mats o m) : 0 < tr m <= exp (- c) /\ tr m < 1 := tr_range mats widths o c Hc Hloss m H L.

  (* nothing put in, nothing comes out *)
  Definition kept (D : Z -> Z -> R) (m d : Z) : R := if Z.eqb m 0 then 0 else if Z.eqb m (N + 1) then 0 else tr m * D m d.

  Lemma kept_small D B m d : (forall m d, hd m d -> lit mats o m -> Rabs (D m d) <= B) -> 0 <= B -> (0 <= m <= N + 1)%Z -> (d = 1 \/ d = -1)%Z ->
    lit mats o m -> Rabs (kept D m d) <= exp (- c) * B.
  Proof.
    intros HD HB Hm Hd L. unfold kept. pose proof (exp_pos (- c)) as E. destruct (Z.eqb m 0) eqn:E0; [rewrite Rabs_R0; apply Rmult_le_pos; lra|].
    destruct (Z.eqb m (N + 1)) eqn:E1; [rewrite Rabs_R0; apply Rmult_le_pos; lra|]. apply Z.eqb_neq in E0, E1.
    assert (HM : (1 <= m <= N)%Z) by lia. destruct (tr_ok m HM L) as [T _]. rewrite Rabs_mult, (Rabs_right (tr m)) by lra.
    apply Rmult_le_compat; [lra|apply Rabs_pos|lra|]. apply HD; auto. unfold hd, heads. fold N. destruct Hd; [left|right]; lia.
  Qed.

  Lemma nothing D B : (forall m d, hd m d -> lit mats o m -> Rabs (D m d) <= B) ->
    (forall m d, hd m d -> lit mats o m -> D m d = rho m d * kept D m (- d) + tau m d * kept D (m + d) d) ->
    forall m d, hd m d -> lit mats o m -> D m d = 0.
  Proof.
    intros HB HD m d H L. assert (B0 : 0 <= B) by (eapply Rle_trans; [apply Rabs_pos|exact (HB m d H L)]).
    assert (P : forall k m d, hd m d -> lit mats o m -> Rabs (D m d) <= exp (- c) ^ k * B).
    { induction k as [|k IH]; intros m' d' H' L'; [cbn [pow]; rewrite Rmult_1_l; auto|]. rewrite (HD m' d' H' L').
      destruct (Hparts m' d' H' L') as (R & Rt & Rs). pose proof (exp_pos (- c)) as E. assert (Q : 0 <= exp (- c) ^ k * B) by (apply Rmult_le_pos; [apply pow_le; lra|exact B0]).
      destruct (heads_there widths m' d' H') as [A1 A2]. assert (Hd : (d' = 1 \/ d' = -1)%Z) by (unfold hd, heads in H'; lia).
      assert (K1 : Rabs (kept D m' (- d')) <= exp (- c) * (exp (- c) ^ k * B)).
      { apply kept_small; auto. lia. }
      cbn [pow]. rewrite Rmult_assoc. eapply Rle_trans; [apply Rabs_triang|]. rewrite !Rabs_mult, (Rabs_right (rho m' d')), (Rabs_right (tau m' d')) by lra.
      assert (EQ : 0 <= exp (- c) * (exp (- c) ^ k * B)) by (apply Rmult_le_pos; lra). set (K := exp (- c) * (exp (- c) ^ k * B)) in *.
      assert (K1' : rho m' d' * Rabs (kept D m' (- d')) <= rho m' d' * K) by (apply Rmult_le_compat_l; lra).
      assert (K2' : tau m' d' * Rabs (kept D (m' + d') d') <= tau m' d' * K).
      { destruct Rt as [Rt|Rt]; [|rewrite <- Rt; lra]. apply Rmult_le_compat_l; [lra|]. apply kept_small; auto. }
      assert ((rho m' d' + tau m' d') * K <= 1 * K) by (apply Rmult_le_compat_r; lra). lra. }
    destruct (Req_dec (D m d) 0) as [Z|Z]; [exact Z|exfalso]. pose proof (Rabs_pos_lt _ Z) as AZ.
    assert (E1 : Rabs (exp (- c)) < 1). { rewrite Rabs_right by (left; apply exp_pos). rewrite <- exp_0. apply exp_increasing. lra. }
    assert (BP : 0 < B + 1) by lra.
    destruct (pow_lt_1_zero (exp (- c)) E1 (Rabs (D m d) / (B + 1))) as [k0 Hk]; [apply Rdiv_lt_0_compat; lra|].
    specialize (Hk k0 (le_n _)). specialize (P k0 m d H L). rewrite Rabs_right in Hk by (apply Rle_ge, pow_le; left; apply exp_pos).
    assert (exp (- c) ^ k0 * (B + 1) < Rabs (D m d)).
    { replace (Rabs (D m d)) with (Rabs (D m d) / (B + 1) * (B + 1)) by (field; lra). apply Rmult_lt_compat_r; lra. }
    assert (0 < exp (- c) ^ k0) by (apply pow_lt, exp_pos). lra.
  Qed.

  Lemma balance_unique q X Y : balance mats widths tables o q X -> balance mats widths tables o q Y -> forall m d, hd m d -> lit mats o m -> X m d = Y m d.
  Proof.
    intros HX HY m d H L. apply Rminus_diag_uniq. apply (nothing (fun m d => X m d - Y m d) 1); auto.
    - intros m' d' H' L'. destruct (HX m' d' H' L') as [A _]. destruct (HY m' d' H' L') as [B _]. apply Rabs_le. lra.
    - intros m' d' H' L'. destruct (HX m' d' H' L') as [_ A]. destruct (HY m' d' H' L') as [_ B]. rewrite A, B. fold (rho m' d') (tau m' d').
      assert (K : forall m d, after mats widths o q X m d - after mats widths o q Y m d = kept (fun m d => X m d - Y m d) m d).
      { intros m0 d0. unfold after, kept. fold N tr. destruct (Z.eqb m0 0); [ring|]. destruct (Z.eqb m0 (N + 1)); ring. }
      rewrite <- !K. ring.
  Qed.

  Lemma rsum_lin {A} (f g : A -> R) a b : forall l, rsum (map (fun x => a * f x + b * g x) l) = a * rsum (map f l) + b * rsum (map g l).
  Proof. induction l as [|x l IH]; cbn [map rsum]; [ring|]. rewrite IH. ring. Qed.
  Lemma rsum_bounds {A} (f : A -> R) : forall l, (forall x, In x l -> 0 <= f x <= 1) -> 0 <= rsum (map f l) <= INR (length l).
  Proof.
    induction l as [|x l IH]; intros H; [cbn; lra|]. cbn [map rsum length]. rewrite S_INR. specialize (H x (or_introl eq_refl)) as Hx.
    assert (0 <= rsum (map f l) <= INR (length l)) by (apply IH; intros; apply H; now right). lra.
  Qed.

  (* layers are counted once *)
  Lemma one_layer m t : forall n, (1 <= m <= Z.of_nat n)%Z -> rsum (map (fun i => if Z.eqb m (Z.of_nat i + 1) then t else 0) (seq 0 n)) = t.
  Proof.
    intros n H. assert (G : forall k s, (Z.of_nat s < m)%Z -> rsum (map (fun i => if Z.eqb m (Z.of_nat i + 1) then t else 0) (seq s k)) = if Z.leb m (Z.of_nat (s + k)) then t else 0).
    { induction k as [|k IH]; intros s Hs.
      - cbn. replace (Z.leb m (Z.of_nat (s + 0))) with false; [reflexivity|]. symmetry. apply Z.leb_gt. lia.
      - cbn [seq map rsum]. destruct (Z.eqb m (Z.of_nat s + 1)) eqn:E.
        + apply Z.eqb_eq in E. replace (Z.leb m (Z.of_nat (s + Datatypes.S k))) with true by (symmetry; apply Z.leb_le; lia).
          assert (Z0 : forall k s, (m <= Z.of_nat s)%Z -> rsum (map (fun i => if Z.eqb m (Z.of_nat i + 1) then t else 0) (seq s k)) = 0).
          { induction k0 as [|k0 IH0]; intros s0 H0; [reflexivity|]. cbn [seq map rsum]. replace (Z.eqb m (Z.of_nat s0 + 1)) with false by (symmetry; apply Z.eqb_neq; lia). rewrite IH0 by lia. ring. }
          rewrite Z0 by lia. ring.
        + apply Z.eqb_neq in E. rewrite IH by lia. replace (s + Datatypes.S k)%nat with (Datatypes.S s + k)%nat by lia. destruct (Z.leb m _); ring. }
    rewrite G by (cbn; lia). cbn [Nat.add]. replace (Z.leb m (Z.of_nat n)) with true by (symmetry; apply Z.leb_le; lia). reflexivity.
  Qed.

  (* so are surfaces *)
  Lemma one_surface m t : forall n, (0 <= m < Z.of_nat n)%Z -> rsum (map (fun i => if Z.eqb m (Z.of_nat i) then t else 0) (seq 0 n)) = t.
  Proof.
    intros n H. transitivity (rsum (map (fun i => if Z.eqb (m + 1) (Z.of_nat i + 1) then t else 0) (seq 0 n))); [|apply one_layer; lia]. f_equal. apply map_ext. intros i.
    replace (Z.eqb (m + 1) (Z.of_nat i + 1)) with (Z.eqb m (Z.of_nat i)); [reflexivity|].
    destruct (Z.eqb m (Z.of_nat i)) eqn:E; symmetry; [apply Z.eqb_eq; apply Z.eqb_eq in E; lia|apply Z.eqb_neq; apply Z.eqb_neq in E; lia].
  Qed.
  Lemma rsum_lin3 {A} (f g h : A -> R) a b c0 : forall l, rsum (map (fun x => a * f x + b * g x + c0 * h x) l) = a * rsum (map f l) + b * rsum (map g l) + c0 * rsum (map h l).
  Proof. induction l as [|x l IH]; cbn [map rsum]; [ring|]. rewrite IH. ring. Qed.
  Lemma rsum_none {A} : forall l : list A, rsum (map (fun _ => 0) l) = 0.
  Proof. induction l as [|x l IH]; cbn [map rsum]; [ring|rewrite IH; ring]. Qed.

  Lemma balance_conserves X : (forall q, within widths q -> balance mats widths tables o q (X q)) ->
    forall m d, hd m d -> lit mats o m ->
    X Reflected m d + X Transmitted m d + rsum (map (fun i => X (AbsorbedIn i) m d) (seq 0 (length widths))) +
      rsum (map (fun i => X (AbsorbedAt i) m d) (seq 0 (Datatypes.S (length widths)))) = 1.
  Proof.
    intros HX. assert (BR : balance mats widths tables o Reflected (X Reflected)) by (apply HX; exact I).
    assert (BT : balance mats widths tables o Transmitted (X Transmitted)) by (apply HX; exact I).
    assert (BA : forall i, In i (seq 0 (length widths)) -> balance mats widths tables o (AbsorbedIn i) (X (AbsorbedIn i))).
    { intros i Hi. apply in_seq in Hi. apply HX. cbn. lia. }
    assert (BF : forall i, In i (seq 0 (Datatypes.S (length widths))) -> balance mats widths tables o (AbsorbedAt i) (X (AbsorbedAt i))).
    { intros i Hi. apply in_seq in Hi. apply HX. cbn. lia. }
    set (T := fun m d => X Reflected m d + X Transmitted m d + rsum (map (fun i => X (AbsorbedIn i) m d) (seq 0 (length widths))) +
      rsum (map (fun i => X (AbsorbedAt i) m d) (seq 0 (Datatypes.S (length widths))))).
    assert (TB : forall m d, hd m d -> lit mats o m -> 0 <= T m d <= 3 + 2 * INR (length widths)).
    { intros m d H L. destruct (BR m d H L) as [A _]. destruct (BT m d H L) as [B _].
      pose proof (rsum_bounds (fun i => X (AbsorbedIn i) m d) (seq 0 (length widths)) (fun i Hi => proj1 (BA i Hi m d H L))) as C.
      pose proof (rsum_bounds (fun i => X (AbsorbedAt i) m d) (seq 0 (Datatypes.S (length widths))) (fun i Hi => proj1 (BF i Hi m d H L))) as C'.
      rewrite seq_length in C, C'. rewrite S_INR in C'. unfold T. lra. }
    intros m d H L. change (T m d = 1). assert (Z : 1 - T m d = 0); [|lra].
    apply (nothing (fun m d => 1 - T m d) (4 + 2 * INR (length widths))); auto.
    - intros m' d' H' L'. specialize (TB m' d' H' L'). pose proof (pos_INR (length widths)). apply Rabs_le. lra.
    - intros m' d' H' L'.
      set (A := fun m d => after mats widths o Reflected (X Reflected) m d + after mats widths o Transmitted (X Transmitted) m d +
        rsum (map (fun i => after mats widths o (AbsorbedIn i) (X (AbsorbedIn i)) m d) (seq 0 (length widths))) +
        rsum (map (fun i => after mats widths o (AbsorbedAt i) (X (AbsorbedAt i)) m d) (seq 0 (Datatypes.S (length widths))))).
      assert (ET : T m' d' = rho m' d' * A m' (- d')%Z + tau m' d' * A (m' + d')%Z d' + (1 - rho m' d' - tau m' d')).
      { unfold T. destruct (BR m' d' H' L') as [_ ->]. destruct (BT m' d' H' L') as [_ ->].
        rewrite (map_ext_in (fun i => X (AbsorbedIn i) m' d') (fun i => rho m' d' * after mats widths o (AbsorbedIn i) (X (AbsorbedIn i)) m' (- d')%Z +
          tau m' d' * after mats widths o (AbsorbedIn i) (X (AbsorbedIn i)) (m' + d')%Z d' + (1 - rho m' d' - tau m' d') * 0))
          by (intros i Hi; exact (proj2 (BA i Hi m' d' H' L'))).
        rewrite (map_ext_in (fun i => X (AbsorbedAt i) m' d') (fun i => rho m' d' * after mats widths o (AbsorbedAt i) (X (AbsorbedAt i)) m' (- d')%Z +
          tau m' d' * after mats widths o (AbsorbedAt i) (X (AbsorbedAt i)) (m' + d')%Z d' + (1 - rho m' d' - tau m' d') * (if Z.eqb (surface_ahead m' d') (Z.of_nat i) then 1 else 0)))
          by (intros i Hi; exact (proj2 (BF i Hi m' d' H' L'))).
        rewrite !rsum_lin3, rsum_none, one_surface.
        - unfold A. fold (rho m' d') (tau m' d'). cbn [counts_at]. ring.
        - unfold surface_ahead. unfold hd, heads in H'. destruct (Z.eqb d' 1) eqn:Ed; [apply Z.eqb_eq in Ed|apply Z.eqb_neq in Ed]; lia. }
      assert (EK : forall m d, (0 <= m <= N + 1)%Z -> 1 - A m d = kept (fun m d => 1 - T m d) m d).
      { intros m0 d0 H0. unfold A, after, kept. fold N tr. destruct (Z.eqb m0 0) eqn:E0; [rewrite !rsum_none; ring|].
        destruct (Z.eqb m0 (N + 1)) eqn:E1; [rewrite !rsum_none; ring|].
        apply Z.eqb_neq in E0, E1.
        rewrite (map_ext _ (fun i => 1 * (if Z.eqb m0 (Z.of_nat i + 1) then 1 - tr m0 else 0) + tr m0 * X (AbsorbedIn i) m0 d0)) by (intros; ring).
        rewrite (map_ext (fun i => 0 + tr m0 * X (AbsorbedAt i) m0 d0) (fun i => 0 * 0 + tr m0 * X (AbsorbedAt i) m0 d0)) by (intros; ring).
        rewrite !rsum_lin, one_layer by (unfold N in *; lia). unfold T. ring. }
      destruct (heads_there widths m' d' H') as [A1 A2]. rewrite <- !EK by auto. rewrite ET. ring.
  Qed.

  (* ---------- existence ---------- *)

  Section Some_q.
  Variable q : quantity.

  Definition good_dec (m d : Z) : bool :=
    ((Z.eqb d 1 && Z.leb 0 m && Z.leb m N) || (Z.eqb d (-1) && Z.leb 1 m && Z.leb m N)) && Rltb (index_of (media mats o) (start_mat o) * sin (c_theta o)) (index_of (media mats o) m).
  Lemma good_iff m d : good_dec m d = true <-> hd m d /\ lit mats o m.
  Proof.
    unfold good_dec, hd, heads, lit. fold N. rewrite andb_true_iff, orb_true_iff, !andb_true_iff, !Z.eqb_eq, !Z.leb_le.
    assert (E : Rltb (index_of (media mats o) (start_mat o) * sin (c_theta o)) (index_of (media mats o) m) = true <-> index_of (media mats o) (start_mat o) * sin (c_theta o) < index_of (media mats o) m).
    { split; [apply Rltb_true|]. intros H. destruct (Rltb _ _) eqn:E; [reflexivity|]. apply Rltb_false in E. lra. }
    rewrite E. intuition lia.
  Qed.

  Definition once (X : Z -> Z -> R) (m d : Z) : R :=
    if good_dec m d then rho m d * after mats widths o q X m (- d) + tau m d * after mats widths o q X (m + d) d + (1 - rho m d - tau m d) * counts_at q m d else 0.
  Fixpoint often (k : nat) : Z -> Z -> R := match k with O => fun _ _ => 0 | Datatypes.S k => once (often k) end.

  Lemma after_mono X Y m d : (forall m d, 0 <= X m d <= Y m d) -> (forall m d, Y m d <= 1) -> (0 <= m <= N + 1)%Z -> lit mats o m ->
    0 <= after mats widths o q X m d <= after mats widths o q Y m d /\ after mats widths o q Y m d <= 1.
  Proof.
    intros HX HY Hm L. unfold after. fold N tr. destruct (Z.eqb m 0) eqn:E0; [destruct q; lra|]. destruct (Z.eqb m (N + 1)) eqn:E1; [destruct q; lra|].
    apply Z.eqb_neq in E0, E1. destruct (tr_ok m ltac:(lia) L) as [[T0 _] T1]. specialize (HX m d). specialize (HY m d).
    assert (P1 : 0 <= tr m * X m d) by (apply Rmult_le_pos; lra). assert (P2 : tr m * X m d <= tr m * Y m d) by (apply Rmult_le_compat_l; lra).
    assert (P3 : tr m * Y m d <= tr m) by (rewrite <- (Rmult_1_r (tr m)) at 2; apply Rmult_le_compat_l; lra).
    destruct q; try lra. destruct (Z.eqb m (Z.of_nat i + 1)); lra.
  Qed.

  Lemma once_mono X Y : (forall m d, 0 <= X m d <= Y m d) -> (forall m d, Y m d <= 1) ->
    forall m d, 0 <= once X m d <= once Y m d /\ once Y m d <= 1.
  Proof.
    intros HX HY m d. unfold once. destruct (good_dec m d) eqn:G; [|lra]. apply good_iff in G. destruct G as [H L].
    destruct (heads_there widths m d H) as [A1 A2]. destruct (Hparts m d H L) as (R & Rt & Rs).
    destruct (after_mono X Y m (- d)%Z HX HY A1 L) as [P1 P2].
    set (a := after mats widths o q X m (- d)) in *. set (b := after mats widths o q Y m (- d)) in *.
    assert (C : 0 <= counts_at q m d <= 1) by (unfold counts_at; destruct q; try lra; destruct (Z.eqb _ _); lra).
    set (f := counts_at q m d) in *. set (r := rho m d) in *. set (t := tau m d) in *.
    assert (Q : 0 <= t * after mats widths o q X (m + d) d <= t * after mats widths o q Y (m + d) d /\ t * after mats widths o q Y (m + d) d <= t).
    { destruct Rt as [Rt|Rt]; [|rewrite <- Rt; lra]. destruct (after_mono X Y (m + d)%Z d HX HY A2 (Hnext m d H L Rt)) as [Q1 Q2].
      split; [split; [apply Rmult_le_pos; lra|apply Rmult_le_compat_l; lra]|]. rewrite <- (Rmult_1_r t) at 2. apply Rmult_le_compat_l; lra. }
    set (ta := t * after mats widths o q X (m + d) d) in *. set (tb := t * after mats widths o q Y (m + d) d) in *.
    assert (0 <= r * a) by (apply Rmult_le_pos; lra). assert (r * a <= r * b) by (apply Rmult_le_compat_l; lra).
    assert (r * b <= r) by (rewrite <- (Rmult_1_r r) at 2; apply Rmult_le_compat_l; lra).
    assert (0 <= (1 - r - t) * f) by (apply Rmult_le_pos; lra).
    assert ((1 - r - t) * f <= 1 - r - t) by (rewrite <- (Rmult_1_r (1 - r - t)) at 2; apply Rmult_le_compat_l; lra). lra.
  Qed.

  Lemma often_grows k : forall m d, 0 <= often k m d <= often (Datatypes.S k) m d /\ often (Datatypes.S k) m d <= 1.
  Proof.
    induction k as [|k IH].
    - intros m d. destruct (once_mono (fun _ _ => 0) (fun _ _ => 0)) with (m := m) (d := d) as [A B]; intros; try lra. cbn [often]. lra.
    - intros m d. change (often (Datatypes.S (Datatypes.S k))) with (once (often (Datatypes.S k))). change (often (Datatypes.S k) m d) with (once (often k) m d).
      apply once_mono; intros m' d'; apply IH.
  Qed.

  Lemma often_limit m d : { l : R | Un_cv (fun k => often k m d) l }.
  Proof.
    apply growing_cv.
    - intros k. apply (often_grows k m d).
    - exists 1. intros x [k ->]. destruct (often_grows k m d) as [A B]. lra.
  Qed.

  Definition limit (m d : Z) : R := proj1_sig (often_limit m d).
  Lemma limit_is m d : Un_cv (fun k => often k m d) (limit m d).
  Proof. exact (proj2_sig (often_limit m d)). Qed.

  Lemma cv_const (a : R) : Un_cv (fun _ => a) a.
  Proof. intros e He. exists O. intros. unfold R_dist. rewrite Rminus_diag_eq by reflexivity. now rewrite Rabs_R0. Qed.

  Lemma after_cv m d : Un_cv (fun k => after mats widths o q (often k) m d) (after mats widths o q limit m d).
  Proof.
    unfold after. fold N tr. destruct (Z.eqb m 0); [apply cv_const|]. destruct (Z.eqb m (N + 1)); [apply cv_const|].
    apply CV_plus; [apply cv_const|]. apply CV_mult; [apply cv_const|apply limit_is].
  Qed.

  Lemma cv_shift f l : Un_cv f l -> Un_cv (fun k => f (Datatypes.S k)) l.
  Proof. intros H e He. destruct (H e He) as [n Hn]. exists n. intros k Hk. apply Hn. lia. Qed.

  Lemma balance_exists : balance mats widths tables o q limit.
  Proof.
    intros m d H L. assert (G : good_dec m d = true) by (apply good_iff; auto). split.
    - split.
      + apply (@Rle_cv_lim (fun _ : nat => 0) (fun k => often k m d)); [intros k; apply (often_grows k m d)|apply cv_const|apply limit_is].
      + apply (@Rle_cv_lim (fun k => often k m d) (fun _ => 1)); [intros k; destruct (often_grows k m d); lra|apply limit_is|apply cv_const].
    - apply (UL_sequence (fun k => often (Datatypes.S k) m d)); [exact (cv_shift (fun k => often k m d) _ (limit_is m d))|].
      assert (E : Un_cv (fun k => rho m d * after mats widths o q (often k) m (- d) + tau m d * after mats widths o q (often k) (m + d) d + (1 - rho m d - tau m d) * counts_at q m d)
        (rho m d * after mats widths o q limit m (- d) + tau m d * after mats widths o q limit (m + d) d + (1 - rho m d - tau m d) * counts_at q m d)).
      { apply CV_plus; [apply CV_plus; (apply CV_mult; [apply cv_const|apply after_cv])|apply cv_const]. }
      intros e He. destruct (E e He) as [n Hn]. exists n. intros k Hk. specialize (Hn k Hk). cbn [often]. unfold once. rewrite G. exact Hn.
  Qed.
  End Some_q.
End Exist.
