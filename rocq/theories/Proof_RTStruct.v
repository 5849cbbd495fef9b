(* Positions and directions of the rays that are started (C128-C133) *)
From Coq Require Import Reals List ZArith Bool String Lia Lra.
From Verif Require Import Base Lib Model_Angles Model_Ideal Model_MatMul Model_Optics Spec_Optics Proof_Optics Model_RayIface Model_RayStack
  Model_RT Model_Surface Model_RTStruct Spec_RTStruct.
Import ListNotations.
Local Notation length := List.length.
Open Scope R_scope.

(* ---------- counting ---------- *)

Lemma ceil_div n k : (0 < k)%nat -> let r := Z.to_nat (Zceil (INR n / INR k)) in (n <= r * k < n + k)%nat.
Proof.
  intros Hk r. unfold r.
  assert (K : 0 < INR k) by (apply lt_0_INR; auto).
  set (x := INR n / INR k).
  assert (X : 0 <= x). { unfold x. apply Rmult_le_pos; [apply pos_INR|]. left. apply Rinv_0_lt_compat. auto. }
  unfold Zceil. destruct (base_Int_part (- x)) as [B1 B2].
  set (z := Int_part (- x)) in *.
  assert (Hz : (z <= 0)%Z). { apply le_IZR. lra. }
  assert (E : INR (Z.to_nat (- z)) = - IZR z). { rewrite INR_IZR_INZ, Z2Nat.id by lia. apply opp_IZR. }
  assert (N : INR n = x * INR k) by (unfold x; field; lra).
  split.
  - apply INR_le. rewrite mult_INR, E, N. apply Rmult_le_compat_r; lra.
  - apply INR_lt. rewrite mult_INR, plus_INR, E, N. replace (x * INR k + INR k) with ((x + 1) * INR k) by ring.
    apply Rmult_lt_compat_r; lra.
Qed.

(* ---------- the arrays of parallel_inner ---------- *)

Lemma fill_block {A} (zero : A) (trace : nat -> R -> R -> A) b : forall l s arr, (s + b + length l <= length arr)%nat ->
  let arr' := fold_left (fun arr cv => set_nth (fst cv + b) (trace (fst cv + b)%nat (fst (snd cv)) (snd (snd cv))) arr)
                        (combine (seq s (length l)) l) arr in
  length arr' = length arr /\
  forall i, nth i arr' zero =
    if ((s + b <=? i) && (i <? s + b + length l))%nat
    then trace i (fst (nth (i - b - s) l (0, 0))) (snd (nth (i - b - s) l (0, 0))) else nth i arr zero.
Proof.
  induction l as [|p l IH]; intros s arr H; cbn zeta.
  - cbn [length seq combine fold_left]. split; auto. intros i.
    destruct (Nat.leb_spec (s + b) i), (Nat.ltb_spec i (s + b + 0)); auto; lia.
  - cbn [length] in *. cbn [seq combine fold_left fst snd].
    destruct (IH (S s) (set_nth (s + b) (trace (s + b)%nat (fst p) (snd p)) arr)) as [L E]; [rewrite set_nth_length; lia|].
    rewrite set_nth_length in L. split; auto. intros i. rewrite E.
    rewrite set_nth_nth by lia.
    destruct (Nat.leb_spec (S s + b) i), (Nat.ltb_spec i (S s + b + length l)), (Nat.leb_spec (s + b) i),
      (Nat.ltb_spec i (s + b + S (length l))), (Nat.eqb_spec i (s + b)); cbn [andb]; try lia; auto.
    + replace (i - b - s)%nat with (S (i - b - S s)) by lia. reflexivity.
    + subst i. replace (s + b - b - s)%nat with 0%nat by lia. reflexivity.
Qed.

Lemma fill_spec {A} (zero : A) (trace : nat -> R -> R -> A) n_reps nx ny xs ys :
  length xs = nx -> length ys = ny -> (0 < nx * ny)%nat ->
  let arr := fill_rays zero trace n_reps nx ny xs ys in
  length arr = (n_reps * nx * ny)%nat /\
  forall k, (k < n_reps * nx * ny)%nat ->
    nth k arr zero = trace k (fst (nth (k mod (nx * ny)) (positions xs ys) (0, 0)))
                             (snd (nth (k mod (nx * ny)) (positions xs ys) (0, 0))).
Proof.
  intros Hx Hy Hp. unfold fill_rays. cbn zeta.
  assert (Lp : length (positions xs ys) = (nx * ny)%nat) by (unfold positions; rewrite prod_length; congruence).
  assert (G : forall m j arr, (m + j = n_reps)%nat -> length arr = (n_reps * nx * ny)%nat ->
    (forall k, (k < j * (nx * ny))%nat -> nth k arr zero = trace k (fst (nth (k mod (nx * ny)) (positions xs ys) (0, 0)))
                             (snd (nth (k mod (nx * ny)) (positions xs ys) (0, 0)))) ->
    let arr' := fold_left (fun arr j => fold_left (fun arr cv => set_nth (fst cv + j * nx * ny)
         (trace (fst cv + j * nx * ny)%nat (fst (snd cv)) (snd (snd cv))) arr) (enumerate (positions xs ys)) arr)
       (seq j m) arr in
    length arr' = (n_reps * nx * ny)%nat /\
    forall k, (k < n_reps * nx * ny)%nat -> nth k arr' zero = trace k (fst (nth (k mod (nx * ny)) (positions xs ys) (0, 0)))
                             (snd (nth (k mod (nx * ny)) (positions xs ys) (0, 0)))).
  { induction m as [|m IH]; intros j arr Hj L H; cbn zeta.
    - cbn [seq fold_left]. split; auto. intros k Hk. apply H. replace j with n_reps by lia. lia.
    - cbn [seq fold_left].
      destruct (fill_block zero trace (j * nx * ny) (positions xs ys) 0 arr) as [L1 E1].
      { rewrite Lp, L. replace (0 + j * nx * ny + nx * ny)%nat with (S j * (nx * ny))%nat by lia.
        replace (n_reps * nx * ny)%nat with (n_reps * (nx * ny))%nat by lia. apply Nat.mul_le_mono_r. lia. }
      fold (enumerate (positions xs ys)) in L1, E1.
      apply IH; [lia|congruence|]. intros k Hk. rewrite E1. rewrite Lp.
      destruct (Nat.leb_spec (0 + j * nx * ny) k), (Nat.ltb_spec k (0 + j * nx * ny + nx * ny)); cbn [andb].
      + replace (k mod (nx * ny))%nat with (k - j * nx * ny - 0)%nat; auto.
        apply (Nat.mod_unique k (nx * ny) j); lia.
      + lia.
      + apply H. lia.
      + lia. }
  apply G; [lia|apply repeat_length|]. intros k Hk. lia.
Qed.

Lemma nth_list_prod {A B} (xs : list A) (ys : list B) k da db : (k < length xs * length ys)%nat ->
  nth k (list_prod xs ys) (da, db) = (nth (k / length ys) xs da, nth (k mod length ys) ys db).
Proof.
  revert k. induction xs as [|x xs IH]; intros k H; cbn [list_prod length] in *; [lia|].
  assert (0 < length ys)%nat by (destruct (length ys); lia).
  destruct (Nat.lt_ge_cases k (length ys)).
  - rewrite app_nth1 by (rewrite map_length; auto). rewrite Nat.div_small, Nat.mod_small by auto. cbn [nth].
    rewrite (nth_indep _ (da, db) (x, db)) by (rewrite map_length; auto). apply map_nth.
  - rewrite app_nth2 by (rewrite map_length; auto). rewrite map_length, IH by lia.
    f_equal.
    + replace k with (k - length ys + 1 * length ys)%nat at 2 by lia. rewrite Nat.div_add by lia.
      rewrite Nat.add_1_r. reflexivity.
    + replace k with (k - length ys + 1 * length ys)%nat at 2 by lia. rewrite Nat.mod_add by lia. reflexivity.
Qed.

(* ray k of the arrays belongs to position (x_i, y_j) with i = (k mod (nx ny)) / ny, j = k mod ny *)
Lemma rays_all {A} (zero : A) (trace : nat -> R -> R -> A) n_rays nx ny xs ys :
  length xs = nx -> length ys = ny -> (0 < nx * ny)%nat ->
  let n_reps := n_reps_of n_rays nx ny in
  let arr := fill_rays zero trace n_reps nx ny xs ys in
  length arr = (n_reps * nx * ny)%nat /\ (n_rays <= length arr < n_rays + nx * ny)%nat /\
  forall k, (k < length arr)%nat -> nth k arr zero = trace k (nth ((k mod (nx * ny)) / ny) xs 0) (nth (k mod ny) ys 0).
Proof.
  intros Hx Hy Hp n_reps arr. destruct (fill_spec zero trace n_reps nx ny xs ys Hx Hy Hp) as [L E].
  fold arr in L, E. split; [exact L|]. split.
  - rewrite L. pose proof (ceil_div n_rays (nx * ny) Hp) as C. cbn zeta in C. fold (n_reps_of n_rays nx ny) in C.
    fold n_reps in C. lia.
  - intros k Hk. rewrite E by lia. unfold positions.
    assert (k mod (nx * ny) < nx * ny)%nat by (apply Nat.mod_upper_bound; lia).
    rewrite nth_list_prod by (rewrite Hx, Hy; auto). cbn [fst snd]. rewrite Hy. f_equal.
    f_equal. rewrite (Nat.mul_comm nx ny). rewrite Nat.mod_mul_r by (destruct nx, ny; lia).
    rewrite (Nat.mul_comm ny (_ mod _)), Nat.mod_add by (destruct ny; lia). apply Nat.mod_mod. destruct ny; lia.
Qed.

(* ---------- coordinates ---------- *)

Lemma coords_length random lim n u : length (coords random lim n u) = n.
Proof. unfold coords. destruct random; [rewrite map_length, seq_length; auto|apply linspace_length]. Qed.

Lemma coords_inside random lim n u x : fst lim <= snd lim -> (forall i, 0 <= u i < 1) -> In x (coords random lim n u) ->
  fst lim <= x <= snd lim.
Proof.
  intros Hl Hu Hin. unfold coords in Hin. destruct random.
  - apply in_map_iff in Hin. destruct Hin as [i [<- _]]. specialize (Hu i). nra.
  - unfold linspace in Hin. apply in_map_iff in Hin. destruct Hin as [i [<- Hi]]. apply in_seq in Hi.
    set (w := snd lim - fst lim) in *. assert (0 <= w) by (unfold w; lra).
    destruct (Nat.eq_dec n 1) as [->|Hn].
    { assert (i = 0)%nat by lia. subst i. cbn [INR]. unfold w in *. lra. }
    assert (P : 0 < INR (n - 1)) by (apply lt_0_INR; lia).
    assert (Q : 0 <= INR i <= INR (n - 1)) by (split; [apply pos_INR|apply le_INR; lia]).
    replace (INR i * (w / INR (n - 1))) with (w * (INR i / INR (n - 1))) by (field; lra).
    assert (0 <= INR i / INR (n - 1) <= 1).
    { split; [apply Rmult_le_pos; [lra|left; apply Rinv_0_lt_compat; auto]|].
      apply (Rmult_le_reg_r (INR (n - 1))); auto. unfold Rdiv. rewrite Rmult_assoc, Rinv_l by lra. lra. }
    unfold w in *. nra.
Qed.

Lemma default_inside random mn mx n u x : mn < mx -> (forall i, 0 <= u i < 1) ->
  In x (coords random (limits None mn mx (Rabs (mn - mx))) n u) -> mn < x < mx.
Proof.
  intros H Hu Hin. assert (E : Rabs (mn - mx) = mx - mn) by (rewrite Rabs_left; lra). rewrite E in Hin.
  apply coords_inside in Hin; auto; cbn [limits fst snd] in *; lra.
Qed.

(* without random positions: from one limit to the other in equal steps *)
Lemma coords_even lim n u i : (2 <= n)%nat -> (S i < n)%nat ->
  nth 0 (coords false lim n u) 0 = fst lim /\ nth (n - 1) (coords false lim n u) 0 = snd lim /\
  nth (S i) (coords false lim n u) 0 - nth i (coords false lim n u) 0 = (snd lim - fst lim) / INR (n - 1).
Proof.
  intros Hn Hi. unfold coords. rewrite !linspace_nth by lia.
  assert (P : 0 < INR (n - 1)) by (apply lt_0_INR; lia).
  split; [cbn [INR]; lra|]. split; [field; lra|]. rewrite S_INR. lra.
Qed.

(* with random positions any coordinates below the upper limit can be drawn *)
Lemma coords_any lim xs : fst lim < snd lim -> (forall x, In x xs -> fst lim <= x < snd lim) ->
  exists u, (forall i, 0 <= u i < 1) /\ coords true lim (length xs) u = xs.
Proof.
  intros Hl Hx. exists (fun i => (nth i xs (fst lim) - fst lim) / (snd lim - fst lim)). split.
  - intros i. assert (B : fst lim <= nth i xs (fst lim) < snd lim).
    { destruct (nth_in_or_default i xs (fst lim)) as [H| ->]; [apply Hx; auto|lra]. }
    split.
    + apply Rmult_le_pos; [lra|]. left. apply Rinv_0_lt_compat. lra.
    + apply (Rmult_lt_reg_r (snd lim - fst lim)); [lra|]. unfold Rdiv. rewrite Rmult_assoc, Rinv_l by lra. lra.
  - unfold coords. apply nth_ext with (d := 0) (d' := 0); [rewrite map_length, seq_length; auto|].
    rewrite map_length, seq_length. intros i Hi. rewrite nth_map_lt with (da := 0%nat) by (rewrite seq_length; auto).
    rewrite seq_nth by auto. cbn [plus]. rewrite (nth_indep xs (fst lim) 0) by auto. field. lra.
Qed.
