From Coq Require Import Reals List ZArith Bool Lia Lra Psatz Sorted FinFun.
From Verif Require Import Base Lib Model_Angles Proof_Angles Spec_Angles Model_Ideal Model_Diff Spec_Diff.
Import ListNotations.
Open Scope R_scope.

(* ---------- reciprocal lattice ---------- *)

Lemma recip_dual a1 a2 : lattice a1 a2 -> dual (2 * PI) a1 a2 (recip1 a1 a2) (recip2 a1 a2).
Proof.
  unfold lattice, dual, inner2, recip1, recip2, scale2, dot2, rot. intros H. cbn [fst snd].
  assert (H1 : fst a1 * - snd a2 + snd a1 * fst a2 <> 0) by lra.
  assert (H2 : fst a2 * - snd a1 + snd a2 * fst a1 <> 0) by lra.
  repeat split; field; auto.
Qed.

Lemma dual_unique c a1 a2 b1 b2 b1' b2' : lattice a1 a2 -> dual c a1 a2 b1 b2 -> dual c a1 a2 b1' b2' -> b1 = b1' /\ b2 = b2'.
Proof.
  unfold lattice, dual, inner2. intros H (A & B & C & D) (A' & B' & C' & D').
  destruct a1 as [x1 y1], a2 as [x2 y2], b1 as [u1 v1], b2 as [u2 v2], b1' as [p1 q1], b2' as [p2 q2]. cbn [fst snd] in *.
  assert (E : forall u v p q, (u - p) * x1 + (v - q) * y1 = 0 -> (u - p) * x2 + (v - q) * y2 = 0 -> u = p /\ v = q).
  { intros u v p q E1 E2. 
    assert (H0 : (u - p) * (x1 * y2 - y1 * x2) = 0).
    { replace ((u - p) * (x1 * y2 - y1 * x2)) with (y2 * ((u - p) * x1 + (v - q) * y1) - y1 * ((u - p) * x2 + (v - q) * y2)) by ring.
      rewrite E1, E2. ring. }
    assert (H1 : (v - q) * (x1 * y2 - y1 * x2) = 0).
    { replace ((v - q) * (x1 * y2 - y1 * x2)) with (x1 * ((u - p) * x2 + (v - q) * y2) - x2 * ((u - p) * x1 + (v - q) * y1)) by ring.
      rewrite E1, E2. ring. }
    apply Rmult_integral in H0, H1. destruct H0; [|contradiction]. destruct H1; [|contradiction]. lra. }
  destruct (E u1 v1 p1 q1) as [-> ->]; try lra. destruct (E u2 v2 p2 q2) as [-> ->]; try lra. auto.
Qed.

Lemma norm_wave b1 b2 m : norm2 (order_vec b1 b2 m) = wave_length b1 b2 m.
Proof. unfold norm2, order_vec, wave_length, length2. cbn [fst snd]. f_equal. ring. Qed.

Lemma kxy_agree a1 a2 g1 g2 m_max : lattice a1 a2 -> dual 1 a1 a2 g1 g2 ->
  directions_kxy g1 g2 m_max = group_kxy a1 a2 (all_orders m_max).
Proof.
  intros HL HD. unfold directions_kxy, group_kxy.
  destruct (dual_unique (2 * PI) a1 a2 (recip1 a1 a2) (recip2 a1 a2) (scale2 (2 * PI) g1) (scale2 (2 * PI) g2) HL (recip_dual _ _ HL)) as [-> ->]; auto.
  unfold dual, inner2, scale2 in *. cbn [fst snd]. destruct HD as (A & B & C & D).
  split; [transitivity (2 * PI * (fst g1 * fst a1 + snd g1 * snd a1)); [ring|rewrite A; ring]|].
  split; [transitivity (2 * PI * (fst g1 * fst a2 + snd g1 * snd a2)); [ring|rewrite B; ring]|].
  split; [transitivity (2 * PI * (fst g2 * fst a1 + snd g2 * snd a1)); [ring|rewrite C; ring]|].
  transitivity (2 * PI * (fst g2 * fst a2 + snd g2 * snd a2)); [ring|rewrite D; ring].
Qed.

(* ---------- rounding ---------- *)

Lemma rint_bound x : Rabs (IZR (rint x) - x) <= 1 / 2.
Proof.
  unfold rint. destruct (base_Int_part x) as [H1 H2]. unfold Zfloor. set (f := Int_part x) in *.
  assert (Hf : 0 <= x - IZR f < 1) by lra.
  assert (E : IZR (f + 1) = IZR f + 1) by (rewrite plus_IZR; auto).
  destruct (Rltb (x - IZR f) (1 / 2)) eqn:E1.
  - apply Rltb_true in E1. apply Rabs_le. lra.
  - apply Rltb_false in E1. destruct (Rltb (1 / 2) (x - IZR f)) eqn:E2.
    + apply Rabs_le. lra.
    + apply Rltb_false in E2. destruct (Z.even f); apply Rabs_le; lra.
Qed.

Lemma round10_bound x : Rabs (round10 x - x) <= 1 / 2 * (1 / 10 ^ 10).
Proof.
  unfold round10. pose proof (rint_bound (x * 10 ^ 10)) as H. set (z := IZR (rint (x * 10 ^ 10))) in *.
  assert (P : 0 < 10 ^ 10) by (apply pow_lt; lra).
  replace (z / 10 ^ 10 - x) with ((z - x * 10 ^ 10) / 10 ^ 10) by (field; lra).
  unfold Rdiv at 1. rewrite Rabs_mult. rewrite (Rabs_right (/ 10 ^ 10)) by (apply Rle_ge, Rlt_le, Rinv_0_lt_compat; auto).
  replace (1 / 10 ^ 10) with (/ 10 ^ 10) by (field; lra). apply Rmult_le_compat_r; auto. apply Rlt_le, Rinv_0_lt_compat; auto.
Qed.

(* ---------- np.unique ---------- *)

Lemma ins_in x y l : In y (ins_unique x l) <-> y = x \/ In y l.
Proof.
  induction l as [|a l IH]; cbn [ins_unique]; [simpl; intuition|].
  destruct (Rltb x a); [simpl; intuition|]. destruct (Reqb x a) eqn:E.
  - apply Reqb_true in E. subst. simpl. intuition.
  - simpl. rewrite IH. intuition.
Qed.
Lemma unique_in y l : In y (np_unique l) <-> In y l.
Proof. unfold np_unique. induction l as [|a l IH]; cbn [fold_right]; [tauto|]. rewrite ins_in, IH. simpl. intuition. Qed.

Lemma ins_sorted x l : StronglySorted Rlt l -> StronglySorted Rlt (ins_unique x l).
Proof.
  induction l as [|a l IH]; intros H; cbn [ins_unique]; [repeat constructor|].
  inversion H as [|? ? H1 H2]; subst. destruct (Rltb x a) eqn:E1.
  - apply Rltb_true in E1. constructor; auto. constructor; auto. rewrite Forall_forall in *. intros y Hy. apply H2 in Hy. lra.
  - apply Rltb_false in E1. destruct (Reqb x a) eqn:E2; auto. 
    constructor; auto. rewrite Forall_forall in *. intros y Hy. apply ins_in in Hy. destruct Hy as [->|Hy]; auto.
    unfold Reqb in E2. destruct (Req_EM_T x a); [discriminate|]. lra.
Qed.
Lemma unique_sorted l : StronglySorted Rlt (np_unique l).
Proof. unfold np_unique. induction l as [|a l IH]; cbn [fold_right]; [constructor|]. apply ins_sorted; auto. Qed.

Lemma sorted_increasing l : StronglySorted Rlt l -> strictly_increasing l.
Proof.
  intros H. induction H as [|a l H IH F]; intros i j Hij; [simpl in Hij; lia|].
  destruct j as [|j]; [lia|]. cbn [length] in Hij. destruct i as [|i]; cbn [nth].
  - rewrite Forall_forall in F. apply F. apply nth_In. lia.
  - apply IH. lia.
Qed.

Lemma increasing_nodup l i j : strictly_increasing l -> (i < length l)%nat -> (j < length l)%nat ->
  nth i l 0 = nth j l 0 -> i = j.
Proof.
  intros H Hi Hj E. destruct (Nat.lt_trichotomy i j) as [Q|[Q|Q]]; auto; exfalso.
  - specialize (H i j ltac:(lia)). lra.
  - specialize (H j i ltac:(lia)). lra.
Qed.

Lemma find_pos_spec x l : In x l -> (find_pos x l < length l)%nat /\ nth (find_pos x l) l 0 = x.
Proof.
  induction l as [|a l IH]; intros H; [easy|]. cbn [find_pos]. destruct (Reqb x a) eqn:E.
  - apply Reqb_true in E. subst. simpl. split; [lia|auto].
  - destruct H as [->|H]. { unfold Reqb in E. destruct (Req_EM_T x x); congruence. }
    destruct (IH H). simpl. split; [lia|auto].
Qed.

(* ---------- accumulation ---------- *)

Lemma add_powers_ok row : forall inds acc j1, (j1 + length inds <= length row)%nat ->
  Forall (fun i => (i < length acc)%nat) inds ->
  exists out, add_powers acc inds row j1 = Ok out /\ length out = length acc /\
    forall q, nth q out 0 = nth q acc 0 + rsum (map (fun j => if Nat.eqb (nth j inds 0%nat) q then nth (j1 + j) row 0 else 0) (seq 0 (length inds))).
Proof.
  induction inds as [|i inds IH]; intros acc j1 HL HF; cbn [add_powers].
  - exists acc. split; auto. split; auto. intros q. simpl. lra.
  - inversion HF as [|? ? Hi HF']; subst. cbn [length] in HL.
    rewrite (py_index_ok _ _ 0) by lia. rewrite Nat2Z.id. cbn [rbind].
    destruct (IH (set_nth i (nth i acc 0 + nth j1 row 0) acc) (S j1)) as [out [E [L H]]]; [lia| |].
    { rewrite set_nth_length. auto. }
    exists out. split; auto. rewrite set_nth_length in L. split; auto. intros q. rewrite H.
    cbn [length seq map rsum]. rewrite <- seq_shift, map_map. cbn [nth]. rewrite Nat.add_0_r.
    assert (ER : rsum (map (fun j => if Nat.eqb (nth j inds 0%nat) q then nth (S j1 + j) row 0 else 0) (seq 0 (length inds))) =
      rsum (map (fun x => if Nat.eqb (nth x inds 0%nat) q then nth (j1 + S x) row 0 else 0) (seq 0 (length inds)))).
    { apply rsum_map_ext. intros x Hx. replace (S j1 + x)%nat with (j1 + S x)%nat by lia. auto. }
    rewrite ER. destruct (Nat.eqb_spec i q) as [->|Hq].
    + rewrite set_nth_nth by auto. rewrite Nat.eqb_refl. lra.
    + destruct (Nat.lt_ge_cases q (length acc)).
      * rewrite set_nth_nth by auto. destruct (Nat.eqb_spec q i); [congruence|]. lra.
      * rewrite !nth_overflow by (rewrite ?set_nth_length; lia). lra.
Qed.

Lemma collect_ok row : forall inds acc j1, (j1 + length inds <= length row)%nat ->
  Forall (fun i => (i < length acc)%nat) inds ->
  exists out, collect acc inds row j1 = Ok out /\ length out = length acc /\
    forall q x, (q < length acc)%nat -> (In x (nth q out []) <-> In x (nth q acc []) \/
      exists j, (j < length inds)%nat /\ nth j inds 0%nat = q /\ nth (j1 + j) row 0 = x).
Proof.
  induction inds as [|i inds IH]; intros acc j1 HL HF; cbn [collect].
  - exists acc. split; auto. split; auto. intros q x Hq. split; auto. intros [H|[j [H _]]]; auto. simpl in H; lia.
  - inversion HF as [|? ? Hi HF']; subst. cbn [length] in HL.
    rewrite (py_index_ok _ _ 0) by lia. rewrite Nat2Z.id. cbn [rbind].
    destruct (IH (set_nth i (nth i acc [] ++ [nth j1 row 0]) acc) (S j1)) as [out [E [L H]]]; [lia| |].
    { rewrite set_nth_length. auto. }
    exists out. split; auto. rewrite set_nth_length in L, H. split; auto. intros q x Hq. rewrite H by auto.
    rewrite set_nth_nth by auto. split.
    + intros [H'|[j (A & B & C)]].
      * destruct (Nat.eqb_spec q i) as [->|]; auto. apply in_app_or in H'. destruct H' as [H'|[<-|[]]]; auto.
        right. exists 0%nat. rewrite Nat.add_0_r. simpl. split; [lia|auto].
      * right. exists (S j). simpl. split; [lia|]. split; auto. rewrite <- C. f_equal. lia.
    + intros [H'|[j (A & B & C)]].
      * left. destruct (Nat.eqb_spec q i) as [->|]; auto. apply in_or_app; auto.
      * destruct j as [|j].
        -- simpl in B. subst i. left. rewrite Nat.eqb_refl. rewrite Nat.add_0_r in C. subst x. apply in_or_app. right. now left.
        -- right. exists j. simpl in A, B. split; [lia|]. split; auto. rewrite <- C. f_equal. lia.
Qed.

Lemma group_sum_total assign l k : length assign = length l -> Forall (fun i => (i < k)%nat) assign ->
  rsum (map (group_sum assign l) (seq 0 k)) = rsum l.
Proof.
  intros HL HF. unfold group_sum.
  rewrite (rsum_swap (fun q j => if Nat.eqb (nth j assign 0%nat) q then nth j l 0 else 0)).
  transitivity (rsum (map (fun j => nth j l 0) (seq 0 (length l)))).
  - apply rsum_map_ext. intros j Hj. apply in_seq in Hj.
    rewrite Forall_forall in HF. assert (Hn : In (nth j assign 0%nat) assign) by (apply nth_In; lia). apply HF in Hn.
    rewrite (rsum_map_single (fun q => if Nat.eqb (nth j assign 0%nat) q then nth j l 0 else 0) k (nth j assign 0%nat)); auto.
    + rewrite Nat.eqb_refl. auto.
    + intros q _ Hq. destruct (Nat.eqb_spec (nth j assign 0%nat) q); congruence.
  - f_equal. apply list_ext with (d := 0); rewrite map_length, seq_length; auto.
    intros i Hi. rewrite nth_map_lt with (da := 0%nat) by (rewrite seq_length; auto). rewrite seq_nth by auto. auto.
Qed.

Lemma sizes_total assign k : Forall (fun i => (i < k)%nat) assign ->
  list_sum (map (group_size assign) (seq 0 k)) = length assign.
Proof.
  intros HF. induction assign as [|a l IH].
  - unfold group_size. cbn. induction (seq 0 k); auto.
  - inversion HF as [|? ? Ha HF']; subst. specialize (IH HF'). cbn [length].
    assert (E : forall n s, (s <= a)%nat -> (a < s + n)%nat -> list_sum (map (group_size (a :: l)) (seq s n)) = S (list_sum (map (group_size l) (seq s n)))).
    { assert (E0 : forall n s, (a < s)%nat -> list_sum (map (group_size (a :: l)) (seq s n)) = list_sum (map (group_size l) (seq s n))).
      { induction n as [|n IHn]; intros s Hs; [reflexivity|]. cbn [seq map list_sum fold_right]. unfold list_sum in IHn. rewrite IHn by lia.
        unfold group_size at 1. cbn [filter]. destruct (Nat.eqb_spec s a); [lia|]. reflexivity. }
      induction n as [|n IHn]; intros s H1 H2; [lia|]. cbn [seq map list_sum fold_right].
      destruct (Nat.eq_dec s a) as [->|Hs].
      - specialize (E0 n (S a) ltac:(lia)). unfold list_sum in E0. rewrite E0. unfold group_size at 1. cbn [filter]. rewrite Nat.eqb_refl. reflexivity.
      - specialize (IHn (S s) ltac:(lia) ltac:(lia)). unfold list_sum in IHn. rewrite IHn. unfold group_size at 1. cbn [filter].
        destruct (Nat.eqb_spec s a); [lia|]. unfold group_size. lia. }
    rewrite E by lia. rewrite IH. reflexivity.
Qed.

Lemma group_orders_unfold a1 a2 basis per_order : basis <> [] -> group_orders a1 a2 basis per_order =
  (let k := map round10 (group_kxy a1 a2 basis) in
   let u := np_unique k in
   let inds := map (fun x => find_pos x u) k in
   rbind (rmap (fun row => add_powers (repeat 0 (length u)) inds row 0) per_order) (fun power =>
   rbind (py_index per_order 0) (fun row0 =>
   rbind (collect (repeat [] (length u)) inds row0 0) (fun indiv =>
   Ok (mk_grouped u (map (fun x => count x k) u) power
         (map (fun x => length (np_unique (map round10 x))) indiv)))))).
Proof. destruct basis; [congruence|reflexivity]. Qed.

Section Group.
  Variables (a1 a2 : v2) (basis : list order) (per_order : list (list R)).
  Hypothesis HL : lattice a1 a2.
  Hypothesis Hb : basis <> [].
  Hypothesis Hrow : Forall (fun r => length r = length basis) per_order.
  Hypothesis Hw : per_order <> [].
  Let k := map round10 (group_kxy a1 a2 basis).
  Let u := np_unique k.
  Let assign := map (fun x => find_pos x u) k.

  Lemma k_length : length k = length basis.
  Proof. unfold k, group_kxy. rewrite !map_length. auto. Qed.
  Lemma assign_length : length assign = length basis.
  Proof. unfold assign. rewrite map_length. apply k_length. Qed.
  Lemma assign_nth j : (j < length basis)%nat -> (nth j assign 0%nat < length u)%nat /\ nth (nth j assign 0%nat) u 0 = nth j k 0.
  Proof.
    intros Hj. unfold assign. rewrite nth_map_lt with (da := 0) by (rewrite k_length; auto).
    apply find_pos_spec. unfold u. rewrite unique_in. apply nth_In. rewrite k_length; auto.
  Qed.
  Lemma assign_lt : Forall (fun i => (i < length u)%nat) assign.
  Proof.
    rewrite Forall_forall. intros i Hi. apply In_nth with (d := 0%nat) in Hi. destruct Hi as [j [Hj <-]].
    rewrite assign_length in Hj. apply assign_nth; auto.
  Qed.
  Lemma assign_eq i j : (i < length basis)%nat -> (j < length basis)%nat ->
    (nth i assign 0%nat = nth j assign 0%nat <-> nth i k 0 = nth j k 0).
  Proof.
    intros Hi Hj. destruct (assign_nth i Hi) as [A1 A2], (assign_nth j Hj) as [B1 B2]. split; intros E.
    - rewrite <- A2, <- B2, E. auto.
    - apply (increasing_nodup u); auto; [apply sorted_increasing, unique_sorted|congruence].
  Qed.
  Lemma k_nth j : (j < length basis)%nat ->
    nth j k 0 = round10 (wave_length (recip1 a1 a2) (recip2 a1 a2) (nth j basis (0, 0)%Z)).
  Proof.
    intros Hj. unfold k, group_kxy. rewrite nth_map_lt with (da := 0) by (rewrite map_length; auto).
    rewrite nth_map_lt with (da := (0, 0)%Z) by auto. rewrite norm_wave. auto.
  Qed.

  Lemma size_count q : (q < length u)%nat -> group_size assign q = count (nth q u 0) k /\ (0 < group_size assign q)%nat.
  Proof.
    intros Hq.
    assert (E : forall l, (forall x, In x l -> In x u) -> length (filter (Nat.eqb q) (map (fun x => find_pos x u) l)) = count (nth q u 0) l).
    { induction l as [|x l IH]; intros Hin; [reflexivity|]. unfold count in *. cbn [map filter].
      specialize (IH (fun y Hy => Hin y (or_intror Hy))).
      destruct (find_pos_spec x u (Hin x (or_introl eq_refl))) as [F1 F2].
      destruct (Nat.eqb_spec q (find_pos x u)) as [Hqx|Hqx].
      - replace (Reqb (nth q u 0) x) with true by (symmetry; apply Reqb_true; rewrite Hqx; auto). simpl. f_equal. exact IH.
      - replace (Reqb (nth q u 0) x) with false; [exact IH|]. symmetry. unfold Reqb. destruct (Req_EM_T (nth q u 0) x) as [Ex|]; auto.
        exfalso. apply Hqx. apply (increasing_nodup u); auto; [apply sorted_increasing, unique_sorted|congruence]. }
    assert (Hall : forall x, In x k -> In x u) by (intros; unfold u; apply unique_in; auto).
    unfold group_size, assign. rewrite (E k Hall). split; auto.
    assert (Hin : In (nth q u 0) k) by (apply unique_in; apply nth_In; auto).
    unfold count. assert (Hf : In (nth q u 0) (filter (Reqb (nth q u 0)) k)).
    { apply filter_In. split; auto. apply Reqb_true. auto. }
    destruct (filter (Reqb (nth q u 0)) k); [easy|simpl; lia].
  Qed.

  Lemma group_ok : exists G, group_orders a1 a2 basis per_order = Ok G /\
    gr_kxy G = u /\ gr_reps G = map (group_size assign) (seq 0 (length u)) /\
    length (gr_power G) = length per_order /\
    (forall w, (w < length per_order)%nat -> length (nth w (gr_power G) []) = length u /\
       forall q, (q < length u)%nat -> nth q (nth w (gr_power G) []) 0 = group_sum assign (nth w per_order []) q) /\
    length (gr_degen G) = length u /\
    (forall q, (q < length u)%nat -> exists l, NoDup l /\ length l = nth q (gr_degen G) 0%nat /\
       forall x, In x l <-> exists j, (j < length basis)%nat /\ nth j assign 0%nat = q /\ round10 (nth j (nth 0 per_order []) 0) = x).
  Proof.
    rewrite group_orders_unfold by auto. cbv zeta. fold k. fold u. fold assign.
    pose proof Hrow as Hrow'. rewrite Forall_forall in Hrow'. clear Hrow.
    assert (EP : exists power, rmap (fun row => add_powers (repeat 0 (length u)) assign row 0) per_order = Ok power /\
      length power = length per_order /\ forall w, (w < length per_order)%nat -> length (nth w power []) = length u /\
       forall q, (q < length u)%nat -> nth q (nth w power []) 0 = group_sum assign (nth w per_order []) q).
    { clear Hw. induction per_order as [|row rows IH]; cbn [rmap].
      - exists []. split; auto. split; auto. simpl; intros; lia.
      - destruct IH as [pw [E1 [E2 E3]]]; [intros; apply Hrow'; simpl; auto|].
        assert (Lr : length row = length basis) by (apply Hrow'; simpl; auto).
        destruct (add_powers_ok row assign (repeat 0 (length u)) 0) as [out [O1 [O2 O3]]].
        { rewrite assign_length. lia. } { rewrite repeat_length. apply assign_lt. }
        rewrite O1. cbn [rbind]. rewrite E1. cbn [rbind]. exists (out :: pw). split; auto. split; [simpl; lia|].
        intros [|w] Hwl; cbn [nth]; [|apply E3; simpl in Hwl; lia].
        rewrite repeat_length in O2. split; auto. intros q Hq. rewrite O3, nth_repeat. unfold group_sum.
        rewrite assign_length, Lr. rewrite Rplus_0_l. reflexivity. }
    destruct EP as [power [E1 [E2 E3]]]. rewrite E1. cbn [rbind].
    destruct per_order as [|row0 rows] eqn:Ep; [congruence|].
    rewrite (py_index_ok _ _ []) by (simpl; lia). cbn [Z.to_nat nth rbind].
    assert (Lr : length row0 = length basis) by (apply Hrow'; simpl; auto).
    destruct (collect_ok row0 assign (repeat [] (length u)) 0) as [out [O1 [O2 O3]]].
    { rewrite assign_length. lia. } { rewrite repeat_length. apply assign_lt. }
    rewrite O1. cbn [rbind]. eexists. split; [reflexivity|]. cbn [gr_kxy gr_reps gr_power gr_degen]. split; auto. split.
    { apply list_ext with (d := 0%nat); [rewrite !map_length, seq_length; auto|]. intros q Hq. rewrite map_length in Hq.
      rewrite nth_map_lt with (da := 0) by auto. rewrite nth_map_lt with (da := 0%nat) by (rewrite seq_length; auto).
      rewrite seq_nth by auto. symmetry. apply size_count; auto. }
    split; auto. split; auto. rewrite repeat_length in *. split; [rewrite map_length; auto|].
    intros q Hq. exists (np_unique (map round10 (nth q out []))). split; [|split].
    - pose proof (unique_sorted (map round10 (nth q out []))) as S. clear -S. induction S; constructor; auto.
      rewrite Forall_forall in H. intros Hin. apply H in Hin. lra.
    - rewrite nth_map_lt with (da := []) by lia. auto.
    - intros x. rewrite unique_in, in_map_iff. split.
      + intros [y [<- Hy]]. apply O3 in Hy; auto. destruct Hy as [Hy|[j (A & B & C)]].
        * rewrite nth_repeat in Hy. easy.
        * rewrite assign_length in A. exists j. split; auto. split; auto. rewrite <- C. auto.
      + intros [j (A & B & C)]. eexists. split; [exact C|]. apply O3; auto. right. exists j. rewrite assign_length. auto.
  Qed.
End Group.

(* ---------- azimuth ---------- *)

Lemma length2_pos f : f <> (0, 0) -> 0 < length2 f.
Proof.
  intros H. unfold length2. apply sqrt_lt_R0. destruct f as [x y]. cbn [fst snd].
  destruct (Req_dec x 0) as [->|Hx].
  - destruct (Req_dec y 0) as [->|Hy]; [congruence|]. assert (0 < y ^ 2) by (replace (y ^ 2) with (y²) by (unfold Rsqr; ring); apply Rlt_0_sqr; auto). lra.
  - assert (0 < x ^ 2) by (replace (x ^ 2) with (x²) by (unfold Rsqr; ring); apply Rlt_0_sqr; auto). pose proof (pow2_ge_0 y). lra.
Qed.

Lemma shift_pi a : exists k : Z, - (PI / 2) <= a + IZR k * PI < PI / 2.
Proof.
  pose proof PI_RGT_0 as HP. exists (- Int_part ((a + PI / 2) / PI))%Z. rewrite opp_IZR.
  destruct (base_Int_part ((a + PI / 2) / PI)) as [H1 H2].
  set (f := IZR (Int_part ((a + PI / 2) / PI))) in *.
  assert (E : (a + PI / 2) / PI * PI = a + PI / 2) by (field; lra). set (t := (a + PI / 2) / PI) in *.
  assert (f * PI <= t * PI) by (apply Rmult_le_compat_r; lra).
  assert (t * PI < (f + 1) * PI) by (apply Rmult_lt_compat_r; lra). lra.
Qed.

Lemma arctan_points f a : points_at f a -> exists k : Z, arctan_div (fst f) (snd f) = a + IZR k * PI.
Proof.
  intros (H0 & Hx & Hy). pose proof (length2_pos f H0) as HL. pose proof PI_RGT_0 as HP.
  destruct (shift_pi a) as [k [K1 K2]]. set (b := a + IZR k * PI) in *.
  assert (HS : sin a * cos b = cos a * sin b).
  { assert (E : sin (b - a) = 0) by (apply sin_eq_0_1; exists k; unfold b; ring). rewrite sin_minus in E. lra. }
  unfold arctan_div. destruct (Reqb (snd f) 0) eqn:Ey.
  - apply Reqb_true in Ey. assert (Hc : cos a = 0). { rewrite Ey in Hy. symmetry in Hy. apply Rmult_integral in Hy. destruct Hy; lra. }
    assert (Hb : cos b = 0).
    { rewrite Hc in HS. rewrite Rmult_0_l in HS. apply Rmult_integral in HS. destruct HS as [HS|]; auto.
      pose proof (sin2_cos2 a) as E. unfold Rsqr in E. rewrite HS, Hc in E. lra. }
    assert (Hb' : b = - (PI / 2)). { destruct K1 as [K1|K1]; auto. pose proof (cos_gt_0 b K1 K2). lra. }
    destruct (Reqb (fst f) 0) eqn:Ex; [|destruct (Rltb 0 (fst f))].
    + apply Reqb_true in Ex. destruct H0. destruct f; simpl in *; subst; auto.
    + exists (k + 1)%Z. rewrite plus_IZR. unfold b in Hb'. lra.
    + exists k. unfold b in Hb'. lra.
  - assert (Hyn : snd f <> 0). { intros E. unfold Reqb in Ey. destruct (Req_EM_T (snd f) 0); congruence. }
    assert (Hc : cos a <> 0). { intros E. apply Hyn. rewrite Hy, E. ring. }
    assert (Hb : cos b <> 0).
    { intros E. rewrite E, Rmult_0_r in HS. symmetry in HS. apply Rmult_integral in HS. destruct HS as [HS|HS]; auto.
      pose proof (sin2_cos2 b) as E'. unfold Rsqr in E'. rewrite HS, E in E'. lra. }
    exists k. fold b.
    assert (K : - (PI / 2) < b). { destruct K1 as [K1|K1]; auto. rewrite <- K1 in Hb. rewrite cos_neg, cos_PI2 in Hb. lra. }
    replace (fst f / snd f) with (tan b); [apply atan_tan; lra|].
    rewrite Hx, Hy. unfold tan. 
    replace (length2 f * sin a / (length2 f * cos a)) with (sin a / cos a) by (field; lra).
    apply (Rmult_eq_reg_r (cos b * cos a)); [|apply Rmult_integral_contrapositive; auto].
    replace (sin b / cos b * (cos b * cos a)) with (cos a * sin b) by (field; auto).
    replace (sin a / cos a * (cos b * cos a)) with (sin a * cos b) by (field; auto). auto.
Qed.

Lemma order_azimuth wl n_in n_out theta phi s g1 g2 m a (k : Z) : 0 < s -> IZR k * s = PI ->
  let d := order_direction wl n_in n_out theta phi s g1 g2 m in
  points_at (d_f d) a -> 0 <= d_phi d < s /\ exists j : Z, d_phi d = a + IZR j * s.
Proof.
  cbv zeta. unfold order_direction. cbn [d_f d_phi]. set (f := f_order _ _ _ _). intros Hs Hk Hp. split; [apply fold_phi_range; auto|].
  destruct (arctan_points f a Hp) as [j ->].
  destruct (fold_phi_congr (a + IZR j * PI) s (2 * k)) as [i ->]; auto. { rewrite mult_IZR, Rmult_assoc, Hk. auto. }
  exists (j * k + i)%Z. rewrite plus_IZR, mult_IZR, <- Hk. ring.
Qed.

(* ---------- enumeration ---------- *)

Lemma order_range_in M m : In m (order_range M) <-> (- Z.of_nat M <= m <= Z.of_nat M)%Z.
Proof.
  unfold order_range. rewrite in_map_iff. split.
  - intros [i [<- Hi]]. apply in_seq in Hi. lia.
  - intros H. exists (Z.to_nat (m + Z.of_nat M)). split; [lia|]. apply in_seq. lia.
Qed.

Lemma order_range_nodup M : NoDup (order_range M).
Proof. unfold order_range. apply Injective_map_NoDup; [|apply seq_NoDup]. intros x y. lia. Qed.

Lemma nodup_product {A B} (l : list B) (r : list A) : NoDup l -> NoDup r -> NoDup (flat_map (fun y => map (fun x => (x, y)) r) l).
Proof.
  intros Hl Hr. induction Hl as [|y l Hy Hl IH]; [constructor|]. cbn [flat_map].
  assert (App : forall (a b : list (A * B)), NoDup a -> NoDup b -> (forall x, In x a -> ~ In x b) -> NoDup (a ++ b)).
  { induction a as [|p a IHa]; intros b Ha Hb Hd; [auto|]. inversion Ha; subst. simpl. constructor.
    - intros Hin. apply in_app_or in Hin. destruct Hin; auto. apply (Hd p); simpl; auto.
    - apply IHa; auto. intros x Hx. apply Hd. simpl; auto. }
  apply App; auto.
  - apply Injective_map_NoDup; auto. intros a b E. congruence.
  - intros p Hp. apply in_map_iff in Hp. destruct Hp as [x [<- _]]. intros Hin. apply in_flat_map in Hin. destruct Hin as [z [Hz Hin]].
    apply in_map_iff in Hin. destruct Hin as [w [E _]]. inversion E; subst; auto.
Qed.

Lemma length_product {A B} (l : list B) (r : list A) : length (flat_map (fun y => map (fun x => (x, y)) r) l) = (length l * length r)%nat.
Proof. induction l as [|y l IH]; [reflexivity|]. cbn [flat_map length]. rewrite app_length, map_length, IH. lia. Qed.

Lemma all_orders_spec M : NoDup (all_orders M) /\ length (all_orders M) = ((2 * M + 1) * (2 * M + 1))%nat /\
  forall m, In m (all_orders M) <-> (Z.abs (fst m) <= Z.of_nat M)%Z /\ (Z.abs (snd m) <= Z.of_nat M)%Z.
Proof.
  split; [|split].
  - apply nodup_product; apply order_range_nodup.
  - unfold all_orders. assert (E : length (order_range M) = (2 * M + 1)%nat) by (unfold order_range; rewrite map_length, seq_length; auto).
    etransitivity; [apply length_product|rewrite E; auto].
  - intros [x y]. unfold all_orders. rewrite in_flat_map. cbn [fst snd]. split.
    + intros [y' [Hy Hin]]. apply in_map_iff in Hin. destruct Hin as [x' [E Hx]]. inversion E; subst.
      apply order_range_in in Hy, Hx. lia.
    + intros [Hx Hy]. exists y. split; [apply order_range_in; lia|]. apply in_map_iff. exists x. split; auto. apply order_range_in; lia.
Qed.

(* ---------- polar angle ---------- *)

Lemma polar_spec n wl f : 0 < n -> 0 < wl ->
  (length2 f < n / wl -> 0 <= polar n wl f < PI / 2 /\ n * sin (polar n wl f) = wl * length2 f) /\
  (n / wl <= length2 f -> polar n wl f = PI / 2).
Proof.
  intros Hn Hw. pose proof PI_RGT_0 as HP. assert (HK : 0 < n / wl) by (apply Rdiv_lt_0_compat; auto).
  pose proof (sqrt_pos (fst f ^ 2 + snd f ^ 2)) as H0. fold (length2 f) in H0.
  assert (HL : length2 f ^ 2 = fst f ^ 2 + snd f ^ 2).
  { unfold length2. rewrite pow2_sqrt; auto. pose proof (pow2_ge_0 (fst f)). pose proof (pow2_ge_0 (snd f)). lra. }
  unfold polar. set (K := n / wl) in *. set (L := length2 f) in *.
  replace (K ^ 2 - fst f ^ 2 - snd f ^ 2) with (K ^ 2 - L ^ 2) by lra.
  replace (fst f ^ 2 + snd f ^ 2 + (K ^ 2 - L ^ 2)) with (K ^ 2) by lra.
  rewrite sqrt_pow2 by lra. split; intros H.
  - assert (HLK : L ^ 2 < K ^ 2) by nra.
    replace (Rleb 0 (K ^ 2 - L ^ 2)) with true by (symmetry; apply Rleb_true; lra).
    set (c := sqrt (K ^ 2 - L ^ 2) / K).
    assert (Hc2 : c ^ 2 = 1 - (L / K) ^ 2).
    { unfold c. replace ((sqrt (K ^ 2 - L ^ 2) / K) ^ 2) with (sqrt (K ^ 2 - L ^ 2) ^ 2 / K ^ 2) by (field; lra).
      rewrite pow2_sqrt by lra. field. lra. }
    assert (Hc0 : 0 < c) by (apply Rdiv_lt_0_compat; auto; apply sqrt_lt_R0; lra).
    pose proof (pow2_ge_0 (L / K)) as Hq.
    assert (Hc1 : c <= 1) by (apply Rnot_lt_le; intros H1; assert (1 < c ^ 2) by nra; lra).
    split; [split|].
    + apply acos_bound.
    + apply Rnot_le_lt. intros H1. pose proof (acos_bound c). pose proof (cos_le_0 (acos c) H1 ltac:(lra)) as Hneg.
      rewrite cos_acos in Hneg; lra.
    + rewrite sin_acos by lra. replace (1 - c²) with ((L / K) ^ 2) by (unfold Rsqr; lra).
      rewrite sqrt_pow2.
      * unfold K. field. lra.
      * apply Rmult_le_pos; auto. apply Rlt_le, Rinv_0_lt_compat; auto.
  - destruct (Rleb 0 (K ^ 2 - L ^ 2)) eqn:E; auto. apply Rleb_true in E.
    assert (K ^ 2 <= L ^ 2) by nra. replace (K ^ 2 - L ^ 2) with 0 by lra. rewrite sqrt_0. unfold Rdiv. rewrite Rmult_0_l. apply acos_0.
Qed.

Lemma zero_order_f fi g1 g2 : f_order fi g1 g2 (0, 0)%Z = fi.
Proof. unfold f_order. destruct fi. cbn [fst snd]. f_equal; ring. Qed.

Lemma f_inc_length wl n theta phi : 0 < n -> 0 < wl -> 0 <= theta <= PI / 2 -> length2 (f_inc wl n theta phi) = n / wl * sin theta.
Proof.
  intros Hn Hw Ht. pose proof PI_RGT_0. assert (0 <= sin theta) by (apply sin_ge_0; lra).
  assert (0 < n / wl) by (apply Rdiv_lt_0_compat; auto). assert (0 <= n / wl * sin theta) by (apply Rmult_le_pos; lra).
  unfold length2, f_inc. cbn [fst snd].
  replace ((n / wl * sin theta * sin phi) ^ 2 + (n / wl * sin theta * cos phi) ^ 2) with
    ((n / wl * sin theta) ^ 2 * ((sin phi)² + (cos phi)²)) by (unfold Rsqr; ring).
  rewrite sin2_cos2, Rmult_1_r. apply sqrt_pow2; auto.
Qed.

Lemma zero_order wl n_in n_out theta phi s g1 g2 : 0 < n_in -> 0 < n_out -> 0 < wl -> 0 <= theta < PI / 2 ->
  let d := order_direction wl n_in n_out theta phi s g1 g2 (0, 0)%Z in
  d_r d = theta /\ (n_in * sin theta < n_out -> n_out * sin (d_t d) = n_in * sin theta).
Proof.
  intros Hi Ho Hw Ht. cbv zeta. unfold order_direction. cbn [d_r d_t]. rewrite zero_order_f.
  pose proof (f_inc_length wl n_in theta phi Hi Hw ltac:(lra)) as HL. set (f := f_inc wl n_in theta phi) in *.
  assert (HK : 0 < n_in / wl) by (apply Rdiv_lt_0_compat; auto).
  assert (Hs1 : sin theta < 1). { rewrite <- sin_PI2. apply sin_increasing_1; lra. }
  split.
  - destruct (polar_spec n_in wl f Hi Hw) as [P _]. destruct P as [P1 P2]. { rewrite HL. nra. }
    rewrite HL in P2. replace (wl * (n_in / wl * sin theta)) with (n_in * sin theta) in P2 by (field; lra).
    apply Rmult_eq_reg_l in P2; [|lra]. apply sin_inj; auto; lra.
  - intros Hlt. rewrite sin_PI_x. destruct (polar_spec n_out wl f Ho Hw) as [P _]. destruct P as [P1 P2].
    + rewrite HL. unfold Rdiv. replace (n_in * / wl * sin theta) with (n_in * sin theta * / wl) by ring.
      apply Rmult_lt_compat_r; auto. apply Rinv_0_lt_compat; auto.
    + rewrite P2, HL. field. lra.
Qed.

(* ---------- assembled statements ---------- *)

Lemma round_close a b : round10 a = round10 b -> Rabs (a - b) <= 1 / 10 ^ 10.
Proof.
  intros E. pose proof (round10_bound a) as A. pose proof (round10_bound b) as B. rewrite E in A.
  assert (H : forall x e, Rabs x <= e -> - e <= x <= e).
  { intros x e Hx. split; [|eapply Rle_trans; [apply Rle_abs|auto]]. pose proof (Rle_abs (- x)) as Q. rewrite Rabs_Ropp in Q. lra. }
  apply H in A, B. apply Rabs_le. lra.
Qed.

Lemma grouping a1 a2 b1 b2 basis per_order : lattice a1 a2 -> dual (2 * PI) a1 a2 b1 b2 -> basis <> [] ->
  per_order <> [] -> Forall (fun row => length row = length basis) per_order ->
  let k j := wave_length b1 b2 (nth j basis (0, 0)%Z) in
  exists G assign, group_orders a1 a2 basis per_order = Ok G /\ length assign = length basis /\
    (forall p q, (p < q < length (gr_kxy G))%nat -> nth p (gr_kxy G) 0 < nth q (gr_kxy G) 0) /\
    (forall j, (j < length basis)%nat -> (nth j assign 0%nat < length (gr_kxy G))%nat /\
       Rabs (nth (nth j assign 0%nat) (gr_kxy G) 0 - k j) <= 1 / 2 * (1 / 10 ^ 10)) /\
    (forall i j, (i < length basis)%nat -> (j < length basis)%nat -> k i = k j -> nth i assign 0%nat = nth j assign 0%nat) /\
    (forall i j, (i < length basis)%nat -> (j < length basis)%nat -> nth i assign 0%nat = nth j assign 0%nat ->
       Rabs (k i - k j) <= 1 / 10 ^ 10) /\
    length (gr_reps G) = length (gr_kxy G) /\ list_sum (gr_reps G) = length basis /\
    (forall q, (q < length (gr_kxy G))%nat -> nth q (gr_reps G) 0%nat = group_size assign q /\ (0 < nth q (gr_reps G) 0)%nat) /\
    length (gr_power G) = length per_order /\
    (forall w, (w < length per_order)%nat -> length (nth w (gr_power G) []) = length (gr_kxy G) /\
       rsum (nth w (gr_power G) []) = rsum (nth w per_order []) /\
       forall q, (q < length (gr_kxy G))%nat -> nth q (nth w (gr_power G) []) 0 = group_sum assign (nth w per_order []) q).
Proof.
  intros HL HD Hb Hp Hrow.
  destruct (dual_unique (2 * PI) a1 a2 b1 b2 (recip1 a1 a2) (recip2 a1 a2) HL HD (recip_dual _ _ HL)) as [-> ->]. cbv beta zeta.
  destruct (group_ok a1 a2 basis per_order Hb Hrow Hp) as (G & EG & EK & ER & LP & HP & LD & HDg).
  set (kk := map round10 (group_kxy a1 a2 basis)) in *. set (u := np_unique kk) in *.
  set (assign := map (fun x => find_pos x u) kk) in *.
  assert (LA : length assign = length basis) by apply assign_length.
  exists G, assign. split; auto. split; auto. rewrite EK. split.
  { apply sorted_increasing. apply unique_sorted. }
  split.
  { intros j Hj. destruct (assign_nth a1 a2 basis j Hj) as [A1 A2]. split; auto.
    change (Rabs (nth (nth j assign 0%nat) u 0 - wave_length (recip1 a1 a2) (recip2 a1 a2) (nth j basis (0, 0)%Z)) <= 1 / 2 * (1 / 10 ^ 10)).
    unfold assign, u, kk. rewrite A2. rewrite k_nth by auto. apply round10_bound. }
  split.
  { intros i j Hi Hj E. apply (assign_eq a1 a2 basis); auto. rewrite (k_nth a1 a2 basis i), (k_nth a1 a2 basis j) by auto. f_equal. exact E. }
  split.
  { intros i j Hi Hj E. apply (assign_eq a1 a2 basis) in E; auto. rewrite (k_nth a1 a2 basis i), (k_nth a1 a2 basis j) in E by auto. apply round_close; auto. }
  split; [rewrite ER, map_length, seq_length; auto|].
  split; [rewrite ER, sizes_total; auto; apply assign_lt|].
  split.
  { intros q Hq. rewrite ER. rewrite nth_map_lt with (da := 0%nat) by (rewrite seq_length; auto). rewrite seq_nth by auto.
    rewrite Nat.add_0_l. split; auto. apply size_count; auto. }
  split; auto. intros w Hw. destruct (HP w Hw) as [P1 P2]. split; auto. split; auto.
  rewrite Forall_forall in Hrow. assert (Lw : length (nth w per_order []) = length basis) by (apply Hrow, nth_In; auto).
  rewrite <- (group_sum_total assign (nth w per_order []) (length u)); [|congruence|apply assign_lt].
  f_equal. apply list_ext with (d := 0); [rewrite map_length, seq_length; auto|]. intros q Hq. rewrite P1 in Hq.
  rewrite P2 by auto. rewrite nth_map_lt with (da := 0%nat) by (rewrite seq_length; auto). rewrite seq_nth by auto. auto.
Qed.

Lemma degeneracy a1 a2 b1 b2 basis per_order : lattice a1 a2 -> dual (2 * PI) a1 a2 b1 b2 -> basis <> [] ->
  per_order <> [] -> Forall (fun row => length row = length basis) per_order ->
  exists G, group_orders a1 a2 basis per_order = Ok G /\ length (gr_degen G) = length (gr_kxy G) /\
    forall q, (q < length (gr_kxy G))%nat -> exists l, NoDup l /\ length l = nth q (gr_degen G) 0%nat /\
      forall x, In x l <-> exists j, (j < length basis)%nat /\
        nth q (gr_kxy G) 0 = round10 (wave_length b1 b2 (nth j basis (0, 0)%Z)) /\ round10 (nth j (nth 0 per_order []) 0) = x.
Proof.
  intros HL HD Hb Hp Hrow.
  destruct (dual_unique (2 * PI) a1 a2 b1 b2 (recip1 a1 a2) (recip2 a1 a2) HL HD (recip_dual _ _ HL)) as [-> ->].
  destruct (group_ok a1 a2 basis per_order Hb Hrow Hp) as (G & EG & EK & ER & LP & HP & LD & HDg).
  exists G. split; auto. rewrite EK. split; auto. intros q Hq. destruct (HDg q Hq) as (l & L1 & L2 & L3).
  exists l. split; auto. split; auto. intros x. rewrite L3. split; intros (j & J1 & J2 & J3); exists j; split; auto; split; auto.
  - rewrite <- k_nth by auto. destruct (assign_nth a1 a2 basis j J1) as [_ A]. rewrite J2 in A. exact A.
  - rewrite <- k_nth in J2 by auto. destruct (assign_nth a1 a2 basis j J1) as [A1 A2]. 
    eapply increasing_nodup; [apply sorted_increasing, unique_sorted| | |rewrite A2; symmetry; exact J2]; auto.
Qed.

Lemma degeneracy_wrong : exists G, group_orders (1, 0) (0, 1) [(1, 0); (-1, 0)]%Z [[1; 1]; [1; 0]] = Ok G /\
  length (gr_kxy G) = 1%nat /\ gr_degen G = [1%nat].
Proof.
  destruct (degeneracy (1, 0) (0, 1) (2 * PI, 0) (0, 2 * PI) [(1, 0); (-1, 0)]%Z [[1; 1]; [1; 0]]) as (G & E & LD & HD); try discriminate.
  { unfold lattice; cbn [fst snd]; lra. } { unfold dual, inner2; cbn [fst snd]; lra. } { repeat constructor. }
  exists G. split; auto.
  assert (K : exists x, group_kxy (1, 0) (0, 1) [(1, 0); (-1, 0)]%Z = [x; x]).
  { exists (wave_length (recip1 (1, 0) (0, 1)) (recip2 (1, 0) (0, 1)) (1, 0)%Z). unfold group_kxy. cbn [map]. rewrite !norm_wave.
    f_equal. f_equal. unfold wave_length, length2. cbn [fst snd]. f_equal. ring. }
  destruct K as [x K].
  assert (EK : gr_kxy G = np_unique (map round10 (group_kxy (1, 0) (0, 1) [(1, 0); (-1, 0)]%Z))).
  { rewrite group_orders_unfold in E by discriminate. cbv zeta in E.
    destruct (rmap _ _) in E; cbn [rbind] in E; [|discriminate]. destruct (py_index _ _) in E; cbn [rbind] in E; [|discriminate].
    destruct (collect _ _ _ _) in E; cbn [rbind] in E; [|discriminate]. inversion E; auto. }
  assert (L1 : length (gr_kxy G) = 1%nat).
  { rewrite EK, K. cbn [map]. unfold np_unique. cbn [fold_right ins_unique].
    replace (Rltb (round10 x) (round10 x)) with false by (symmetry; apply Rltb_false; lra).
    replace (Reqb (round10 x) (round10 x)) with true by (symmetry; apply Reqb_true; lra). reflexivity. }
  split; auto. destruct (HD 0%nat ltac:(lia)) as (l & N & Ll & Hl). rewrite L1 in LD.
  destruct (gr_degen G) as [|d [|]]; try discriminate. cbn [nth] in Ll. f_equal. rewrite <- Ll.
  assert (All : forall y, In y l -> y = round10 1).
  { intros y Hy. apply Hl in Hy. destruct Hy as (j & Hj & _ & <-). destruct j as [|[|]]; [reflexivity|reflexivity|simpl in Hj; lia]. }
  assert (I1 : In (round10 1) l).
  { apply Hl. exists 0%nat. split; [simpl; lia|]. split; auto.
    assert (Hin : In (nth 0 (gr_kxy G) 0) (gr_kxy G)) by (apply nth_In; lia). rewrite EK in Hin at 2. rewrite unique_in in Hin.
    unfold group_kxy in Hin. cbn [map] in Hin. rewrite !norm_wave in Hin.
    assert (B : recip1 (1, 0) (0, 1) = (2 * PI, 0) /\ recip2 (1, 0) (0, 1) = (0, 2 * PI)).
    { apply (dual_unique (2 * PI) (1, 0) (0, 1)); [unfold lattice; cbn [fst snd]; lra|apply recip_dual; unfold lattice; cbn [fst snd]; lra|].
      unfold dual, inner2; cbn [fst snd]; lra. }
    destruct B as [-> ->] in Hin. cbn [nth]. destruct Hin as [<-|[<-|[]]]; auto. f_equal. unfold wave_length, length2. cbn [fst snd]. f_equal. ring. }
  destruct l as [|y [|z l]]; [easy|reflexivity|]. exfalso. inversion N; subst. apply H1.
  rewrite (All y) by (simpl; auto). rewrite (All z) by (simpl; auto). simpl; auto.
Qed.

Lemma back_points : points_at (d_f (order_direction 1 1 1 0 0 (PI / 2) (1, 0) (0, 1) (0, -1)%Z)) PI.
Proof.
  unfold order_direction. cbn [d_f]. unfold f_order, f_inc. cbn [fst snd]. rewrite sin_0.
  match goal with |- points_at ?f _ => replace f with (0, -1) by (f_equal; field) end.
  unfold points_at, length2. cbn [fst snd]. rewrite sin_PI, cos_PI.
  replace (0 ^ 2 + (-1) ^ 2) with 1 by ring. rewrite sqrt_1. split; [|lra]. intros H. inversion H. lra.
Qed.

Lemma opposite_merge wl n_in n_out phi phi_sym g1 g2 m1 m2 :
  let d m := order_direction wl n_in n_out 0 phi phi_sym g1 g2 m in
  snd (d_f (d (m1, m2))) <> 0 ->
  d_f (d (- m1, - m2)%Z) = (- fst (d_f (d (m1, m2))), - snd (d_f (d (m1, m2)))) /\
  d_phi (d (- m1, - m2)%Z) = d_phi (d (m1, m2)) /\ d_r (d (- m1, - m2)%Z) = d_r (d (m1, m2)).
Proof.
  cbv zeta. intros H.
  assert (E : d_f (order_direction wl n_in n_out 0 phi phi_sym g1 g2 (- m1, - m2)%Z) =
    (- fst (d_f (order_direction wl n_in n_out 0 phi phi_sym g1 g2 (m1, m2))), - snd (d_f (order_direction wl n_in n_out 0 phi phi_sym g1 g2 (m1, m2))))).
  { unfold order_direction, f_order, f_inc. cbn [d_f fst snd]. rewrite sin_0, !opp_IZR. f_equal; ring. }
  split; auto. unfold order_direction in *. cbn [d_f d_phi d_r] in *. rewrite E. set (f := f_order _ _ _ (m1, m2)) in *. cbn [fst snd]. split.
  - f_equal. unfold arctan_div.
    replace (Reqb (snd f) 0) with false by (symmetry; unfold Reqb; destruct (Req_EM_T (snd f) 0); tauto).
    replace (Reqb (- snd f) 0) with false by (symmetry; unfold Reqb; destruct (Req_EM_T (- snd f) 0); auto; lra).
    f_equal. field. auto.
  - unfold polar. cbn [fst snd]. replace ((- fst f) ^ 2) with (fst f ^ 2) by ring. replace ((- snd f) ^ 2) with (snd f ^ 2) by ring. auto.
Qed.

Lemma azimuth_wrong :
  let d m := order_direction 1 1 1 0 0 (2 * PI) (1, 0) (0, 1) m in
  points_at (d_f (d (0, 1)%Z)) 0 /\ points_at (d_f (d (0, -1)%Z)) PI /\ d_phi (d (0, -1)%Z) = d_phi (d (0, 1)%Z) /\
  ~ exists j : Z, d_phi (d (0, -1)%Z) = PI + IZR j * (2 * PI).
Proof.
  cbv zeta. pose proof PI_RGT_0 as HP.
  assert (F : d_f (order_direction 1 1 1 0 0 (2 * PI) (1, 0) (0, 1) (0, 1)%Z) = (0, 1)).
  { unfold order_direction. cbn [d_f]. unfold f_order, f_inc. cbn [fst snd]. rewrite sin_0. f_equal; field. }
  destruct (opposite_merge 1 1 1 0 (2 * PI) (1, 0) (0, 1) 0 1) as (_ & M & _). { rewrite F. cbn [snd]. lra. }
  assert (P0 : d_phi (order_direction 1 1 1 0 0 (2 * PI) (1, 0) (0, 1) (0, 1)%Z) = 0).
  { unfold order_direction in *. cbn [d_f d_phi] in *. rewrite F. cbn [fst snd]. unfold arctan_div.
    replace (Reqb 1 0) with false by (symmetry; unfold Reqb; destruct (Req_EM_T 1 0); auto; lra).
    replace (0 / 1) with 0 by field. rewrite atan_0. apply fold_phi_unique with (m := 1%Z) (k := 0%Z); lra. }
  split; [rewrite F; unfold points_at, length2; cbn [fst snd]; rewrite sin_0, cos_0; replace (0 ^ 2 + 1 ^ 2) with 1 by ring; rewrite sqrt_1; split; [intros H; inversion H; lra|lra]|].
  split; [exact back_points|]. split; [exact M|]. intros [j Hj].
  change (- (0))%Z with 0%Z in M. change (- (1))%Z with (-1)%Z in M. rewrite M, P0 in Hj.
  assert (E : 1 + 2 * IZR j = 0) by (apply (Rmult_eq_reg_r PI); lra).
  assert (E2 : IZR (1 + 2 * j) = 0) by (rewrite plus_IZR, mult_IZR; exact E). apply eq_IZR in E2. lia.
Qed.

Lemma grating_equation wl n_in n_out theta phi phi_sym g1 g2 m : 0 < wl -> 0 < n_in -> 0 < n_out ->
  let d := order_direction wl n_in n_out theta phi phi_sym g1 g2 m in
  d_f d = (n_in / wl * sin theta * sin phi + (IZR (fst m) * fst g1 + IZR (snd m) * fst g2),
           n_in / wl * sin theta * cos phi + (IZR (fst m) * snd g1 + IZR (snd m) * snd g2)) /\
  (length2 (d_f d) < n_in / wl -> 0 <= d_r d < PI / 2 /\ n_in * sin (d_r d) = wl * length2 (d_f d)) /\
  (n_in / wl <= length2 (d_f d) -> d_r d = PI / 2) /\
  (length2 (d_f d) < n_out / wl -> PI / 2 < d_t d <= PI /\ n_out * sin (d_t d) = wl * length2 (d_f d)) /\
  (n_out / wl <= length2 (d_f d) -> d_t d = PI / 2).
Proof.
  intros Hw Hi Ho. cbv zeta. split; [reflexivity|]. unfold order_direction. cbn [d_f d_r d_t]. set (f := f_order _ _ _ _).
  destruct (polar_spec n_in wl f Hi Hw) as [A1 A2]. destruct (polar_spec n_out wl f Ho Hw) as [B1 B2].
  split; auto. split; auto. split.
  - intros H. destruct (B1 H) as [C1 C2]. split; [lra|]. rewrite sin_PI_x. auto.
  - intros H. rewrite (B2 H). field.
Qed.

Lemma grating_ex : d_r (order_direction 1 1 2 0 0 PI (3 / 2, 0) (0, 1) (1, 0)%Z) = PI / 2 /\
  2 * sin (d_t (order_direction 1 1 2 0 0 PI (3 / 2, 0) (0, 1) (1, 0)%Z)) = 3 / 2.
Proof.
  destruct (grating_equation 1 1 2 0 0 PI (3 / 2, 0) (0, 1) (1, 0)%Z) as (F & _ & A & B & _); try lra.
  assert (L : length2 (d_f (order_direction 1 1 2 0 0 PI (3 / 2, 0) (0, 1) (1, 0)%Z)) = 3 / 2).
  { rewrite F, sin_0. cbn [fst snd]. unfold length2. cbn [fst snd].
    match goal with |- sqrt ?x = _ => replace x with ((3 / 2) ^ 2) by field end. apply sqrt_pow2. lra. }
  rewrite L in *. split; [apply A; lra|]. rewrite (proj2 (B ltac:(lra))). ring.
Qed.

Lemma lattice_ex : lattice (500, 0) (250, 433).
Proof. unfold lattice. cbn [fst snd]. lra. Qed.
