(* The power balance of a single layer is solved by the slab formulas. *)
From Coq Require Import Reals List Bool ZArith Lia Lra.
From Verif Require Import Base Lib Model_Optics Model_OpticsC Model_RayIface Model_RayStack Model_StackRay Model_StackCalc
  Spec_OpticsC Spec_RayStack Spec_StackRay Spec_StackCalc Spec_Mean Spec_Slab Proof_MeanRay.
Import ListNotations.
Open Scope R_scope.
Local Notation length := List.length.

Section Slab.
  Variables (mats : list material) (width : R) (tables : list (option (Z -> R -> table_entry))) (o : rt_options) (c : R).
  Hypothesis Hparts : forall m d, heads [width] m d -> lit mats o m ->
    0 <= reflectance mats tables o m d /\ 0 <= passed mats tables o m d /\ reflectance mats tables o m d + passed mats tables o m d <= 1.
  Hypothesis Hnext : forall m d, heads [width] m d -> lit mats o m -> 0 < passed mats tables o m d -> lit mats o (m + d).
  Hypothesis Hc : 0 < c.
  Hypothesis Hloss : lit mats o 1 -> c <= si_loss mats [width] o 1.

  Let r0 := reflectance mats tables o 0 1.
  Let t0 := passed mats tables o 0 1.
  Let rb := reflectance mats tables o 1 (-1).
  Let tb := passed mats tables o 1 (-1).
  Let r1 := reflectance mats tables o 1 1.
  Let t1 := passed mats tables o 1 1.
  Let d := transmittance mats [width] o 1.

  Definition slab_value (q : quantity) : R :=
    match q with
    | Reflected => slab_R r0 t0 rb tb r1 d
    | Transmitted => slab_T t0 rb r1 t1 d
    | AbsorbedIn _ => slab_A t0 rb r1 d
    | AbsorbedAt i => if Nat.eqb i 0 then slab_R (1 - r0 - t0) t0 rb (1 - rb - tb) r1 d else slab_T t0 rb r1 (1 - r1 - t1) d
    end.

  Lemma slab_is q X : lit mats o 0 -> within [width] q -> balance mats [width] tables o q X -> X 0%Z 1%Z = slab_value q.
  Proof.
    intros L Hq HX. assert (H0 : heads [width] 0 1) by (left; cbn [length]; lia).
    assert (H1 : heads [width] 1 1) by (left; cbn [length]; lia). assert (H2 : heads [width] 1 (-1)) by (right; cbn [length]; lia).
    assert (AF0 : forall s, after mats [width] o q X 0 s = match q with Reflected => 1 | _ => 0 end) by reflexivity.
    assert (AF2 : forall s, after mats [width] o q X 2 s = match q with Transmitted => 1 | _ => 0 end) by reflexivity.
    assert (AF1 : forall s, after mats [width] o q X 1 s = match q with AbsorbedIn i => 1 - d | _ => 0 end + d * X 1%Z s).
    { intros s. unfold after. cbn [Z.eqb length Z.of_nat Pos.of_succ_nat Z.add Pos.add]. fold d. destruct q as [| |i|i]; try reflexivity.
      cbn in Hq. replace i with 0%nat by lia. reflexivity. }
    destruct (HX _ _ H0 L) as [_ E0]. change (0 + 1)%Z with 1%Z in E0. change (Z.opp 1) with (-1)%Z in E0. rewrite AF0, AF1 in E0. fold r0 t0 in E0.
    destruct (Hparts _ _ H0 L) as (_ & P0 & _). fold t0 in P0. destruct P0 as [P0|P0].
    - pose proof (Hnext _ _ H0 L P0) as L1. change (0 + 1)%Z with 1%Z in L1.
      destruct (HX _ _ H1 L1) as [_ E1]. change (1 + 1)%Z with 2%Z in E1. change (Z.opp 1) with (-1)%Z in E1. rewrite AF1, AF2 in E1. fold r1 t1 in E1.
      destruct (HX _ _ H2 L1) as [_ E2]. change (1 + -1)%Z with 0%Z in E2. change (- -1)%Z with 1%Z in E2. rewrite AF1, AF0 in E2. fold rb tb in E2.
      destruct (Hparts _ _ H1 L1) as (Q1 & Q2 & Q3). fold r1 t1 in Q1, Q2, Q3. destruct (Hparts _ _ H2 L1) as (Q4 & Q5 & Q6). fold rb tb in Q4, Q5, Q6.
      assert (Hd : 0 < d < 1). { unfold d, transmittance. split; [apply exp_pos|]. specialize (Hloss L1). rewrite <- exp_0. apply exp_increasing. lra. }
      assert (RD : 1 - d * r1 * d * rb <> 0).
      { assert (0 <= d * r1 <= d) by (split; [apply Rmult_le_pos; lra|rewrite <- (Rmult_1_r d) at 2; apply Rmult_le_compat_l; lra]).
        assert (0 <= d * rb <= d) by (split; [apply Rmult_le_pos; lra|rewrite <- (Rmult_1_r d) at 2; apply Rmult_le_compat_l; lra]).
        replace (d * r1 * d * rb) with ((d * r1) * (d * rb)) by ring. assert ((d * r1) * (d * rb) <= d * d) by (apply Rmult_le_compat; lra). nra. }
      assert (S1 : X 1%Z 1%Z = (r1 * (match q with AbsorbedIn _ => 1 - d | _ => 0 end + d * (rb * match q with AbsorbedIn _ => 1 - d | _ => 0 end
          + tb * match q with Reflected => 1 | _ => 0 end + (1 - rb - tb) * counts_at q 1 (-1))) + t1 * match q with Transmitted => 1 | _ => 0 end + (1 - r1 - t1) * counts_at q 1 1)
          / (1 - d * r1 * d * rb)).
      { apply (Rmult_eq_reg_r (1 - d * r1 * d * rb)); [|exact RD]. match goal with |- _ = ?a / ?b * ?b => replace (a / b * b) with a by (field; exact RD) end.
        rewrite E2 in E1. set (x := X 1%Z 1%Z) in *. clearbody x.
        match type of E1 with _ = ?rhs => replace (x * (1 - d * r1 * d * rb)) with (x - r1 * d * (rb * d) * x) by ring; rewrite E1 at 1 end. ring. }
      rewrite E0, S1. unfold slab_value, slab_R, slab_T, slab_A, round. destruct q as [| |i|i]; cbn [counts_at].
      + field; exact RD.
      + field; exact RD.
      + field; exact RD.
      + cbn in Hq. destruct i as [|[|i]]; [| |lia]; cbn [Nat.eqb surface_ahead Z.eqb Pos.eqb Z.of_nat Pos.of_succ_nat Z.sub Z.add Z.opp Pos.pred_double Z.pos_sub]; field; exact RD.
    - rewrite E0. unfold slab_value, slab_R, slab_T, slab_A. rewrite <- P0. destruct q as [| |i|i]; cbn [counts_at]; unfold Rdiv; try ring.
      cbn in Hq. destruct i as [|[|i]]; [| |lia]; cbn [Nat.eqb surface_ahead Z.eqb Pos.eqb Z.of_nat Pos.of_succ_nat]; unfold Rdiv; ring.
  Qed.
End Slab.
