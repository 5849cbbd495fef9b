(* One ray in a planar structure, averaged over its random numbers. *)
From Coq Require Import Reals List Bool ZArith Lia Lra.
From Verif Require Import Base Lib Model_Angles Model_Optics Model_OpticsC Model_RayIface Model_RayStack Model_Surface Model_RTStruct Model_Trace
  Model_StackRay Model_StackCalc
  Spec_Optics Spec_OpticsC Spec_RayIface Spec_RayStack Spec_StackRay Spec_StackCalc Spec_Mean
  Proof_OpticsC2 Proof_StackFlat Proof_StackCalc2 Proof_Mean Proof_Trees Prop_OpticsC.
Import ListNotations.
Open Scope R_scope.
Local Notation length := List.length.

Lemma mean_cut3 n f f1 f2 f3 r t m1 m2 m3 : 0 <= r -> 0 <= t -> r + t <= 1 -> mean n f1 m1 -> (0 < t -> mean n f2 m2) -> mean n f3 m3 ->
  (forall v u, 0 <= v < 1 -> fractions u -> f (before v u) = if Rleb v r then f1 u else if Rleb v (r + t) then f2 u else f3 u) ->
  mean (S n) f (r * m1 + t * m2 + (1 - r - t) * m3).
Proof.
  intros H1 H2 H3 M1 M2 M3 E. cbn [mean]. exists (cut3 r (r + t) m1 m2 m3). split.
  - intros v Hv. unfold cut3. destruct (Rleb v r) eqn:L1.
    + apply (mean_ext n f1); [|exact M1]. intros u Hu. rewrite E, L1 by auto. reflexivity.
    + destruct (Rleb v (r + t)) eqn:L2.
      * apply (mean_ext n f2); [|apply M2; apply Rleb_false in L1; apply Rleb_true in L2; lra]. intros u Hu. rewrite E, L1, L2 by auto. reflexivity.
      * apply (mean_ext n f3); [|exact M3]. intros u Hu. rewrite E, L1, L2 by auto. reflexivity.
  - replace (r * m1 + t * m2 + (1 - r - t) * m3) with (r * m1 + (r + t - r) * m2 + (1 - (r + t)) * m3) by ring. apply mean1_cut3; lra.
Qed.

(* ---------- the light in its media ---------- *)

Section Media.
  Variables (mats : list material) (widths : list R) (tables : list (option (Z -> R -> table_entry))) (o : rt_options).
  Let N := Z.of_nat (length widths).
  Hypothesis Hmed : forall m, (0 <= m <= N + 1)%Z -> optical_medium (nk_of (media mats o) m).
  Hypothesis Hth : 0 <= c_theta o < PI / 2.
  Hypothesis Hstart : (0 <= start_mat o <= N + 1)%Z.

  Lemma s_nonneg : 0 <= index_of (media mats o) (start_mat o) * sin (c_theta o).
  Proof. apply Rmult_le_pos; [destruct (Hmed _ Hstart) as [H _]; unfold index_of; lra|]. apply sin_ge_0; pose proof PI_RGT_0; lra. Qed.

  Lemma start_lit : lit mats o (start_mat o).
  Proof.
    unfold lit. destruct (Hmed _ Hstart) as [H _]. unfold index_of in *. pose proof PI_RGT_0.
    assert (S : sin (c_theta o) < 1). { rewrite <- sin_PI2. apply sin_increasing_1; lra. }
    rewrite <- (Rmult_1_r (re (nk_of (media mats o) (start_mat o)))) at 2. apply Rmult_lt_compat_l; auto.
  Qed.

  Lemma angle_in m : lit mats o m -> 0 <= snell (media mats o) (start_mat o) (c_theta o) m < PI / 2 /\
    index_of (media mats o) m * sin (snell (media mats o) (start_mat o) (c_theta o) m) = index_of (media mats o) (start_mat o) * sin (c_theta o).
  Proof. intros H. exact (asin_snell _ _ (conj s_nonneg H)). Qed.

  Lemma heads_there m d : heads widths m d -> (0 <= m <= N + 1 /\ 0 <= m + d <= N + 1)%Z.
  Proof. unfold heads, N. intros [[-> H]|[-> H]]; lia. Qed.

  Lemma film_in_tables m d ent : film_ahead (films_on (c_pol o) tables) m d = Coated ent -> In (Some ent) tables.
  Proof.
    intros EA. unfold film_ahead, films_on in EA. set (i := Z.to_nat _) in EA. destruct (nth_error tables i) as [t|] eqn:Et.
    - rewrite (nth_error_nth _ _ (Bare PolU) (map_nth_error (coated (c_pol o)) _ _ Et)) in EA. destruct t as [e|]; [|discriminate].
      cbn [coated] in EA. injection EA as ->. exact (nth_error_In _ _ Et).
    - rewrite nth_overflow in EA; [discriminate|]. rewrite map_length. now apply nth_error_None.
  Qed.

  Hypothesis Hprob : forall ent side th, In (Some ent) tables -> 0 <= te_R (ent side th) /\ 0 <= te_T (ent side th) /\ te_R (ent side th) + te_T (ent side th) <= 1.

  Lemma parts_range m d : heads widths m d -> lit mats o m ->
    0 <= reflectance mats tables o m d /\ 0 <= passed mats tables o m d /\ reflectance mats tables o m d + passed mats tables o m d <= 1.
  Proof.
    intros H L. destruct (heads_there m d H) as [A B]. destruct (angle_in m L) as [C _]. pose proof PI_RGT_0.
    unfold passed, reflectance. cbv zeta. destruct (film_ahead _ m d) as [p|ent] eqn:E.
    - assert (Q : 0 <= fresnel_Rc (nk_of (media mats o) m) (nk_of (media mats o) (m + d)) (snell (media mats o) (start_mat o) (c_theta o) m) p <= 1)
        by (apply C169_probability; auto; lra). lra.
    - exact (Hprob ent _ _ (film_in_tables m d ent E)).
  Qed.

  Hypothesis Hcrit : forall m, (0 <= m <= N + 1)%Z -> index_of (media mats o) m <> index_of (media mats o) (start_mat o) * sin (c_theta o).
  Hypothesis Hbeyond : forall m d ent, (d = 1 \/ d = -1)%Z -> (0 <= m <= N + 1)%Z -> (0 <= m + d <= N + 1)%Z ->
    film_ahead (films_on (c_pol o) tables) m d = Coated ent ->
    index_of (media mats o) (m + d) <= index_of (media mats o) (start_mat o) * sin (c_theta o) ->
    te_T (ent d (snell (media mats o) (start_mat o) (c_theta o) m)) = 0.

  Lemma lit_next m d : heads widths m d -> lit mats o m -> 0 < passed mats tables o m d -> lit mats o (m + d).
  Proof.
    intros H L R. destruct (heads_there m d H) as [A B]. destruct (angle_in m L) as [C D].
    destruct (Rle_lt_dec (index_of (media mats o) (m + d)) (index_of (media mats o) (start_mat o) * sin (c_theta o))) as [E|E]; [|exact E].
    exfalso. unfold passed, reflectance in R. cbv zeta in R. destruct (film_ahead _ m d) as [p|ent] eqn:F.
    - destruct E as [E|E]; [|exact (Hcrit _ B E)].
      destruct (fresnel_Rc_cases (nk_of (media mats o) m) (nk_of (media mats o) (m + d)) _ p (proj1 (Hmed _ A)) (proj1 (Hmed _ B)) C) as [Q _].
      unfold index_of in D, E. rewrite Q in R; [lra|]. rewrite D. exact E.
    - rewrite (Hbeyond m d ent) in R; auto; [lra|]. destruct H as [[-> _]|[-> _]]; auto.
  Qed.
End Media.

Section Ray.
  Variables (mats : list material) (widths : list R) (tables : list (option (Z -> R -> table_entry))) (o : rt_options) (c : R) (q : quantity).
  Let N := Z.of_nat (length widths).
  Let rho := reflectance mats tables o.
  Let tau := passed mats tables o.
  Let tr := transmittance mats widths o.
  Let thresh := c_thresh o.
  Hypothesis Hparts : forall m d, heads widths m d -> lit mats o m -> 0 <= rho m d /\ 0 <= tau m d /\ rho m d + tau m d <= 1.
  Hypothesis Hnext : forall m d, heads widths m d -> lit mats o m -> 0 < tau m d -> lit mats o (m + d).
  Hypothesis Hc : 0 < c.
  Hypothesis Hloss : forall m, (1 <= m <= N)%Z -> lit mats o m -> c <= si_loss mats widths o m.
  Hypothesis Hthr : 0 < c_thresh o.

  Definition in_layer (m : Z) : R := match q with AbsorbedIn i => if Z.eqb m (Z.of_nat i + 1) then 1 - tr m else 0 | _ => 0 end.
  Definition out_front : R := match q with Reflected => 1 | _ => 0 end.
  Definition out_rear : R := match q with Transmitted => 1 | _ => 0 end.

  Definition enters (V : Z -> Z -> R -> R) (m d : Z) (p : R) : R :=
    if Z.eqb m 0 then p * out_front else if Z.eqb m (N + 1) then p * out_rear
    else p * in_layer m + (if Rltb (p * tr m) thresh then 0 else V m d (p * tr m)).

  Fixpoint val (n k : nat) (m d : Z) (p : R) (u : nat -> R) : R :=
    match n with
    | O => 0
    | S n => if Rleb (u k) (rho m d) then enters (fun m d p => val n (S k) m d p u) m (- d) p
             else if Rleb (u k) (rho m d + tau m d) then enters (fun m d p => val n (S k) m d p u) (m + d)%Z d p
             else p * counts_at q m d
    end.

  Lemma enters_ext V W m d p : (forall m d p, V m d p = W m d p) -> enters V m d p = enters W m d p.
  Proof. intros H. unfold enters. destruct (Z.eqb m 0); auto. destruct (Z.eqb m (N + 1)); auto. destruct (Rltb _ _); auto. now rewrite H. Qed.

  Lemma val_before n : forall k m d p v u, val n (S k) m d p (before v u) = val n k m d p u.
  Proof.
    induction n as [|n IH]; intros k m d p v u; [reflexivity|]. cbn [val before].
    destruct (Rleb (u k) (rho m d)); [apply enters_ext; intros; apply IH|]. destruct (Rleb (u k) _); [apply enters_ext; intros; apply IH|reflexivity].
  Qed.

  Lemma tr_range m : (1 <= m <= N)%Z -> lit mats o m -> 0 < tr m <= exp (- c) /\ tr m < 1.
  Proof.
    intros H L. pose proof (Hloss m H L) as B. unfold tr, transmittance. split; [split; [apply exp_pos|]|].
    - destruct B as [B|B]; [left; apply exp_increasing; lra|rewrite B; lra].
    - rewrite <- exp_0. apply exp_increasing. lra.
  Qed.

  Section Mean.
  Variable X : Z -> Z -> R.
  Hypothesis HX : balance mats widths tables o q X.

  Lemma enters_mean n p m d : 0 < p -> p * exp (- (INR (S n) * c)) < thresh ->
    (m = 0 \/ m = N + 1 \/ (1 <= m <= N /\ (d = 1 \/ d = -1)))%Z -> ((1 <= m <= N)%Z -> lit mats o m) ->
    (forall p, 0 < p -> p * exp (- (INR n * c)) < thresh -> (1 <= m <= N)%Z -> exists v, mean n (val n 0 m d p) v /\ p * X m d - thresh <= v <= p * X m d) ->
    exists v, mean n (fun u => enters (fun m d p => val n 0 m d p u) m d p) v /\ p * after mats widths o q X m d - thresh <= v <= p * after mats widths o q X m d.
  Proof.
    intros Hp HT Hm HL IH. unfold enters, after. fold N tr thresh. destruct (Z.eqb m 0) eqn:E0.
    - exists (p * out_front). split; [apply mean_const|]. unfold out_front, thresh. destruct q; lra.
    - destruct (Z.eqb m (N + 1)) eqn:E1.
      + exists (p * out_rear). split; [apply mean_const|]. unfold out_rear, thresh. destruct q; lra.
      + apply Z.eqb_neq in E0, E1. destruct Hm as [Hm|[Hm|[Hm Hd]]]; [lia|lia|]. specialize (HL Hm). destruct (tr_range m Hm HL) as [[T0 T1] T2].
        assert (HXm : 0 <= X m d <= 1). { apply HX; [|exact HL]. destruct Hd as [-> | ->]; [left|right]; lia. }
        match goal with |- exists v, _ /\ p * (?a + ?b) - _ <= v <= _ => change a with (in_layer m) end.
        assert (Pp : 0 < p * tr m) by (apply Rmult_lt_0_compat; lra).
        destruct (Rltb (p * tr m) thresh) eqn:EL.
        * apply Rltb_true in EL. exists (p * in_layer m + 0). split; [apply mean_const|]. assert (0 <= p * tr m * X m d <= p * tr m) by (split; [apply Rmult_le_pos; lra|rewrite <- (Rmult_1_r (p * tr m)) at 2; apply Rmult_le_compat_l; lra]). lra.
        * destruct (IH (p * tr m) Pp) as (v & M & B); [|exact Hm|].
          { eapply Rle_lt_trans; [|exact HT]. rewrite S_INR. replace (- ((INR n + 1) * c)) with (- c + - (INR n * c)) by ring. rewrite exp_plus, <- Rmult_assoc.
            apply Rmult_le_compat_r; [left; apply exp_pos|]. apply Rmult_le_compat_l; lra. }
          exists (p * in_layer m + 1 * v). split; [|lra].
          apply (mean_ext n (fun u => p * in_layer m + 1 * val n 0 m d (p * tr m) u)); [intros; ring|]. now apply mean_affine.
  Qed.

  Lemma val_mean n : forall m d p, heads widths m d -> lit mats o m -> 0 < p -> p * exp (- (INR n * c)) < thresh ->
    exists v, mean n (val n 0 m d p) v /\ p * X m d - thresh <= v <= p * X m d.
  Proof.
    induction n as [|n IH]; intros m d p H L Hp HT; destruct (HX m d H L) as [B E].
    - exists 0. split; [intros u _; reflexivity|]. cbn [INR] in HT. rewrite Rmult_0_l, Ropp_0, exp_0 in HT.
      assert (0 <= p * X m d <= p) by (split; [apply Rmult_le_pos; lra|rewrite <- (Rmult_1_r p) at 2; apply Rmult_le_compat_l; lra]). lra.
    - destruct (Hparts m d H L) as (Rr & Rt & Rs).
      assert (Hd : (d = 1 \/ d = -1)%Z) by (destruct H as [[H _]|[H _]]; auto).
      destruct (enters_mean n p m (- d) Hp HT) as (v1 & M1 & B1).
      { unfold heads in H. fold N in H. destruct H as [[-> H]|[-> H]]; [|lia]. destruct (Z.eq_dec m 0); [auto|]. right; right. split; [lia|auto]. }
      { auto. }
      { intros p' P1 P2 Hm. apply IH; auto. unfold heads. fold N. destruct Hd as [-> | ->]; [right|left]; split; lia. }
      assert (F2 : 0 < tau m d -> exists v2, mean n (fun u => enters (fun m d p => val n 0 m d p u) (m + d)%Z d p) v2 /\
        p * after mats widths o q X (m + d) d - thresh <= v2 <= p * after mats widths o q X (m + d) d).
      { intros Hr. pose proof (Hnext m d H L Hr) as L2. unfold heads in H. fold N in H. apply enters_mean; auto.
        - destruct H as [[-> H]|[-> H]]; lia.
        - intros p' P1 P2 Hm. apply IH; auto. unfold heads. fold N. destruct Hd as [-> | ->]; [left|right]; split; lia. }
      assert (Q : forall v2 (f2 : (nat -> R) -> R), f2 = (fun u => enters (fun m d p => val n 0 m d p u) (m + d)%Z d p) -> (0 < tau m d -> mean n f2 v2) ->
        mean (S n) (val (S n) 0 m d p) (rho m d * v1 + tau m d * v2 + (1 - rho m d - tau m d) * (p * counts_at q m d))).
      { intros v2 f2 -> M2. apply (mean_cut3 n _ _ _ (fun _ => p * counts_at q m d) (rho m d) (tau m d) v1 v2 _ Rr Rt Rs M1 M2 (mean_const n _)). intros v u Hv Hu. cbn [val before].
        destruct (Rleb v (rho m d)); [apply enters_ext; intros; apply val_before|]. destruct (Rleb v _); [apply enters_ext; intros; apply val_before|reflexivity]. }
      rewrite E. fold rho tau. set (f := counts_at q m d) in *.
      destruct Rt as [G|G].
      + destruct (F2 G) as (v2 & M2 & B2). exists (rho m d * v1 + tau m d * v2 + (1 - rho m d - tau m d) * (p * f)). split; [apply (Q v2 _ eq_refl); auto|].
        set (r := rho m d) in *. set (t := tau m d) in *. set (a1 := after _ _ _ _ _ m (- d)) in *. set (a2 := after _ _ _ _ _ (m + d) d) in *. clearbody r t a1 a2 f.
        replace (p * (r * a1 + t * a2 + (1 - r - t) * f)) with (r * (p * a1) + t * (p * a2) + (1 - r - t) * (p * f)) by ring.
        assert (r * (p * a1 - thresh) <= r * v1 <= r * (p * a1)) by (split; apply Rmult_le_compat_l; lra).
        assert (t * (p * a2 - thresh) <= t * v2 <= t * (p * a2)) by (split; apply Rmult_le_compat_l; lra).
        assert ((r + t) * thresh <= 1 * thresh) by (apply Rmult_le_compat_r; unfold thresh; lra). lra.
      + exists (rho m d * v1 + tau m d * 0 + (1 - rho m d - tau m d) * (p * f)). split; [apply (Q 0 _ eq_refl); lra|]. rewrite <- G in *.
        set (r := rho m d) in *. set (a1 := after _ _ _ _ _ m (- d)) in *. set (a2 := after _ _ _ _ _ (m + d) d) in *. clearbody r a1 a2 f.
        replace (p * (r * a1 + 0 * a2 + (1 - r - 0) * f)) with (r * (p * a1) + (1 - r) * (p * f)) by ring.
        assert (r * (p * a1 - thresh) <= r * v1 <= r * (p * a1)) by (split; apply Rmult_le_compat_l; lra).
        assert (r * thresh <= 1 * thresh) by (apply Rmult_le_compat_r; unfold thresh; lra). lra.
  Qed.

  End Mean.

  (* ---------- what a ray contributes ---------- *)

  Variable u : nat -> R.
  Hypothesis Hu : fractions u.
  Hypothesis Hheads : heads widths (start_mat o) (start_dir o).
  Hypothesis Hlit : lit mats o (start_mat o).
  Let films := films_on (c_pol o) tables.
  Let at_ := planar_at (media mats o) films (start_mat o) (start_dir o) (c_theta o) u.
  Let fate_ k := next_fate (media mats o) films (start_mat o) (c_theta o) u (fst (at_ k)) (snd (at_ k)) k.
  Let P n := exp (- rsum (map (fun j => si_loss mats widths o (fst (at_ (S j)))) (seq 0 n))).

  (* the number decides *)
  Lemma fate_cases k m d : at_ k = (m, d) ->
    match fate_ k with
    | Back => Rleb (u k) (rho m d) = true /\ at_ (S k) = (m, - d)%Z
    | Onward => Rleb (u k) (rho m d) = false /\ Rleb (u k) (rho m d + tau m d) = true /\ at_ (S k) = (m + d, d)%Z
    | Stays _ => Rleb (u k) (rho m d) = false /\ Rleb (u k) (rho m d + tau m d) = false
    end.
  Proof.
    intros E. assert (St : at_ (S k) = match fate_ k with Back => (m, - d) | Onward => (m + d, d) | Stays _ => (m, d) end%Z).
    { unfold fate_, at_ in *. cbn [planar_at]. rewrite E. reflexivity. }
    rewrite St. unfold fate_. rewrite E. cbn [fst snd]. unfold next_fate. unfold rho, tau, passed, reflectance. cbv zeta. fold films.
    destruct (film_ahead films m d) as [p|ent]; cbn [meets_film].
    - destruct (Rleb (u k) _) eqn:L; [auto|]. split; [reflexivity|]. split; [|reflexivity]. apply Rleb_true. destruct (Hu k). lra.
    - destruct (Rleb (u k) (te_R _)) eqn:L1; [auto|]. destruct (Rleb (u k) (te_R _ + te_T _)) eqn:L2; auto.
  Qed.

  Lemma P_step k : P (S k) = P k * tr (fst (at_ (S k))).
  Proof.
    unfold P. rewrite seq_S, map_app, rsum_app. cbn [map rsum]. unfold tr, transmittance. rewrite <- exp_plus. f_equal. cbn [Nat.add]. ring.
  Qed.

  Variable n0 : nat.
  Variable fin : finish.
  Hypothesis Halive : forall j, (1 <= j <= n0)%nat -> (1 <= fst (at_ j) <= N)%Z /\ thresh <= P j.
  Hypothesis Hfate : forall j A, (j <= n0)%nat -> fate_ j = Stays A <-> j = n0 /\ fin = Film A.

  Lemma at_heads k : (k <= n0)%nat -> heads widths (fst (at_ k)) (snd (at_ k)) /\ lit mats o (fst (at_ k)).
  Proof.
    induction k as [|k IH]; intros L.
    - split; [exact Hheads|exact Hlit].
    - destruct IH as [A B]; [lia|]. destruct (at_ k) as [m d] eqn:E. cbn [fst snd] in A, B. pose proof (fate_cases k m d E) as F.
      destruct (Halive (S k) ltac:(lia)) as [I _].
      destruct (fate_ k) as [| |A'] eqn:Ef.
      + destruct F as [_ E']. rewrite E' in *. cbn [fst snd] in *. split; [|exact B]. unfold heads in *. fold N in A |- *. destruct A as [[-> A]|[-> A]]; lia.
      + destruct F as (F1 & F2 & E'). rewrite E' in *. cbn [fst snd] in *. apply Rleb_false in F1. apply Rleb_true in F2.
        split; [|apply Hnext; auto; lra]. unfold heads in *. fold N in A |- *. destruct A as [[-> A]|[-> A]]; lia.
      + apply Hfate in Ef; lia.
  Qed.

  Lemma P_small k : (k <= n0)%nat -> P k <= exp (- (INR k * c)).
  Proof.
    induction k as [|k IH]; intros L.
    - unfold P. cbn [seq map rsum INR]. rewrite Rmult_0_l. lra.
    - rewrite P_step, S_INR. replace (- ((INR k + 1) * c)) with (- (INR k * c) + - c) by ring. rewrite exp_plus.
      destruct (Halive (S k) ltac:(lia)) as [I _]. destruct (at_heads (S k) L) as [_ Lt]. destruct (tr_range _ I Lt) as [T _].
      apply Rmult_le_compat; [left; apply exp_pos|lra|apply IH; lia|lra].
  Qed.

  (* the ray ends within n surfaces *)
  Lemma ends_soon n : (1 <= n)%nat -> exp (- (INR n * c)) < thresh -> (n0 < n)%nat.
  Proof.
    intros Hn HT. destruct (Nat.eq_dec n0 0) as [->|Z0]; [lia|]. destruct (Halive n0 ltac:(lia)) as [_ A]. pose proof (P_small n0 (le_n n0)) as B.
    destruct (le_lt_dec n n0) as [L|L]; [|exact L]. exfalso. apply le_INR in L.
    assert (exp (- (INR n0 * c)) <= exp (- (INR n * c))); [|lra].
    assert (Q : - (INR n0 * c) <= - (INR n * c)) by (apply Ropp_le_contravar; apply Rmult_le_compat_r; lra).
    destruct Q as [Q|Q]; [left; now apply exp_increasing|rewrite Q; lra].
  Qed.

  Hypothesis Hend : match fin with Front => at_ (S n0) = (0, -1)%Z | Rear => at_ (S n0) = (N + 1, 1)%Z | Film _ => True
                    | Bulk => (1 <= fst (at_ (S n0)) <= N)%Z /\ P (S n0) < thresh end.

  Definition lost (j : nat) : R :=
    match q with AbsorbedIn i => if Z.eqb (fst (at_ (S j))) (Z.of_nat i + 1) then P j - P (S j) else 0 | _ => 0 end.
  Definition leaves : R :=
    match fin with Front => P n0 * out_front | Rear => P n0 * out_rear | Film _ => P n0 * counts_at q (fst (at_ n0)) (snd (at_ n0)) | Bulk => 0 end.

  Lemma lost_in k : P k * in_layer (fst (at_ (S k))) = lost k.
  Proof. unfold lost, in_layer. destruct q; try ring. rewrite P_step. destruct (Z.eqb _ _); ring. Qed.

  Lemma val_is n : forall k, (k <= n0)%nat -> (n0 < k + n)%nat ->
    val n k (fst (at_ k)) (snd (at_ k)) (P k) u = leaves + rsum (map lost (seq k (crossed n0 fin - k))).
  Proof.
    induction n as [|n IH]; intros k L1 L2; [lia|]. destruct (at_ k) as [m d] eqn:E. cbn [fst snd].
    pose proof (fate_cases k m d E) as F. cbn [val].
    destruct (fate_ k) as [| |A] eqn:Ef.
    3:{ destruct F as [F1 F2]. rewrite F1, F2. destruct (proj1 (Hfate k A L1) Ef) as [-> Ff]. unfold leaves. rewrite Ff, E. cbn [crossed fst snd]. rewrite Nat.sub_diag. cbn [seq map rsum]. ring. }
    all: transitivity (enters (fun m d p => val n (S k) m d p u) (fst (at_ (S k))) (snd (at_ (S k))) (P k));
      [first [destruct F as (F1 & F2 & E'); rewrite F1, F2, E' | destruct F as [F1 E']; rewrite F1, E']; reflexivity|].
    all: assert (NF : forall A, fin <> Film A \/ k <> n0) by
      (intros A; destruct (Nat.eq_dec k n0) as [Ek|Ek]; [left|right; exact Ek]; intros Q; pose proof (proj2 (Hfate k A L1) (conj Ek Q)) as Q'; rewrite Ef in Q'; discriminate).
    all: clear F; unfold enters; destruct (Nat.eq_dec k n0) as [Ek|Nk].
    1,3: subst k; unfold leaves; destruct fin as [| |A|]; cbn [crossed];
      [ rewrite Hend; cbn [fst]; rewrite Nat.sub_diag; cbn [seq map rsum Z.eqb]; ring
      | rewrite Hend; cbn [fst]; replace (Z.eqb (N + 1) 0) with false by (symmetry; apply Z.eqb_neq; unfold N; lia); rewrite Z.eqb_refl, Nat.sub_diag; cbn [seq map rsum]; ring
      | destruct (NF A) as [Q|Q]; contradiction
      | destruct Hend as [I T]; replace (Z.eqb (fst (at_ (S n0))) 0) with false by (symmetry; apply Z.eqb_neq; lia);
        replace (Z.eqb (fst (at_ (S n0))) (N + 1)) with false by (symmetry; apply Z.eqb_neq; lia);
        rewrite <- P_step, (proj2 (Rltb_true _ _) T), lost_in; replace (S n0 - n0)%nat with 1%nat by lia; cbn [seq map rsum]; ring ].
    all: destruct (Halive (S k) ltac:(lia)) as [I T]; replace (Z.eqb (fst (at_ (S k))) 0) with false by (symmetry; apply Z.eqb_neq; lia);
      replace (Z.eqb (fst (at_ (S k))) (N + 1)) with false by (symmetry; apply Z.eqb_neq; lia);
      rewrite <- P_step, (proj2 (Rltb_false _ _) T), lost_in; rewrite IH by lia;
      replace (crossed n0 fin - k)%nat with (S (crossed n0 fin - S k)) by (destruct fin; cbn [crossed]; lia); cbn [seq map rsum]; ring.
  Qed.
End Ray.
