(* Proofs about the pass loop of calculate_RAT *)
From Coq Require Import Reals List ZArith Bool Lia Lra Psatz.
From Verif Require Import Base Lib Model_Angles Model_Ideal Model_MatMul Spec_Matrix Spec_MatMul Proof_Ideal.
Import ListNotations.
Open Scope R_scope.

(* ---------- linear algebra ---------- *)

Lemma dot_nth u v n : length u = n -> length v = n ->
  dot u v = rsum (map (fun k => nth k u 0 * nth k v 0) (seq 0 n)).
Proof.
  intros Hu Hv. unfold dot. f_equal. apply list_ext with (d := 0).
  - rewrite map2_length, map_length, seq_length. lia.
  - intros i Hi. rewrite map2_length in Hi. rewrite map2_nth with (da := 0) (db := 0) by lia.
    rewrite nth_map_lt with (da := 0%nat) by (rewrite seq_length; lia). rewrite nth_seq0 by lia. auto.
Qed.

Lemma matvec_length m v : length (matvec m v) = length m.
Proof. apply map_length. Qed.

Lemma rsum_matvec m v nr nc : has_shape m nr nc -> length v = nc ->
  rsum (matvec m v) = rsum (map (fun k => col_total m k * nth k v 0) (seq 0 nc)).
Proof.
  intros [Hr Hc] Hv. unfold matvec.
  rewrite (rsum_map_ext _ (fun row => rsum (map (fun k => nth k row 0 * nth k v 0) (seq 0 nc)))).
  - rewrite rsum_swap. apply rsum_map_ext. intros k _. unfold col_total.
    rewrite <- (rsum_map_ext (fun row => nth k v 0 * nth k row 0)) by (intros; ring).
    rewrite rsum_map_scal. ring.
  - intros row Hrow. apply dot_nth; auto.
Qed.

Lemma rsum_nth_seq v n : length v = n -> rsum v = rsum (map (fun k => nth k v 0) (seq 0 n)).
Proof. intros <-. rewrite map_nth_seq. auto. Qed.

Lemma matvec_nonneg m v : nonneg_matrix m -> (forall x, In x v -> 0 <= x) ->
  forall x, In x (matvec m v) -> 0 <= x.
Proof.
  intros Hm Hv x Hx. apply in_map_iff in Hx. destruct Hx as [row [<- Hrow]].
  unfold dot. apply rsum_nonneg. intros y Hy.
  assert (G : forall (r u : list R) y, (forall a, In a r -> 0 <= a) -> (forall a, In a u -> 0 <= a) ->
             In y (map2 Rmult r u) -> 0 <= y).
  { induction r as [|a r IH]; intros [|b u] z H1 H2 Hz; simpl in Hz; try contradiction.
    destruct Hz as [<-|Hz]; [apply Rmult_le_pos; [apply H1|apply H2]; simpl; auto|].
    apply (IH u z); auto; intros; [apply H1|apply H2]; simpl; auto. }
  eapply (G row v); eauto.
Qed.

Lemma diag_mul_length d v n : length d = n -> length v = n -> length (diag_mul d v) = n.
Proof. intros. unfold diag_mul. rewrite map2_length. lia. Qed.

Lemma diag_mul_bounds d : forall v, (forall x, In x d -> 0 <= x <= 1) -> (forall x, In x v -> 0 <= x) ->
  (forall x, In x (diag_mul d v) -> 0 <= x) /\ rsum (diag_mul d v) <= rsum v.
Proof.
  induction d as [|a d IH]; intros v Hd Hv.
  - simpl. split; [intros ? []|]. apply rsum_nonneg. auto.
  - destruct v as [|b v]; simpl; [split; [intros ? []|lra]|].
    destruct (IH v) as [H1 H2]; [intros; apply Hd; simpl; auto|intros; apply Hv; simpl; auto|].
    assert (0 <= a <= 1) by (apply Hd; simpl; auto). assert (0 <= b) by (apply Hv; simpl; auto).
    split; [intros x [<-|Hx]; [nra|auto]|]. fold (diag_mul d v). nra.
Qed.

Lemma diag_mul_contract d q : forall v, 0 <= q -> (forall x, In x d -> x <= q) -> (forall x, In x v -> 0 <= x) ->
  rsum (diag_mul d v) <= q * rsum v.
Proof.
  induction d as [|a d IH]; intros v Hq Hd Hv.
  - simpl. assert (0 <= rsum v) by (apply rsum_nonneg; auto). nra.
  - destruct v as [|b v]; simpl; [lra|]. fold (diag_mul d v).
    assert (H1 : rsum (diag_mul d v) <= q * rsum v) by (apply IH; auto; intros; [apply Hd|apply Hv]; simpl; auto).
    assert (a <= q) by (apply Hd; simpl; auto). assert (0 <= b) by (apply Hv; simpl; auto). nra.
Qed.

(* ---------- one wavelength of dot_wl ---------- *)

Definition dot_w (m : wmat) (w : nat) (v : list R) : list R :=
  match m with M3 ms => matvec (nth w ms []) v | M2 m => broadcast (ncols m) (matvec m v) end.

Definition lists_wl (m : wmat) (nwl : nat) : Prop := match m with M3 ms => length ms = nwl | M2 _ => True end.

Lemma dot_wl_nth m vec nwl w : lists_wl m nwl -> length vec = nwl -> (w < nwl)%nat ->
  nth w (dot_wl m vec) [] = dot_w m w (nth w vec []).
Proof.
  intros Hm Hv Hw. destruct m as [ms|m]; simpl in *.
  - apply map2_nth; lia.
  - apply (nth_map_lt (fun v => broadcast (ncols m) (matvec m v))). lia.
Qed.

Lemma dot_wl_length m vec nwl : lists_wl m nwl -> length vec = nwl -> length (dot_wl m vec) = nwl.
Proof.
  intros Hm Hv. destruct m as [ms|m]; simpl in *; [rewrite map2_length; lia|rewrite map_length; lia].
Qed.

Lemma stored_lists m nwl nr nc : stored_for m nwl nr nc -> lists_wl m nwl.
Proof. destruct m; simpl; tauto. Qed.
Lemma abs_lists A nwl h : abs_stored A nwl h -> lists_wl A nwl.
Proof. destruct A; simpl; auto. intros [nl [H _]]. auto. Qed.

Lemma stored_shape m nwl nr nc w : stored_for m nwl nr nc -> (w < nwl)%nat -> has_shape (at_wl m w) nr nc.
Proof.
  destruct m as [ms|m]; simpl; auto. intros [H1 H2] Hw. apply H2. apply nth_In. lia.
Qed.

(* square matrices: the numpy broadcast never triggers *)
Lemma dot_w_square m nwl h w v : stored_for m nwl h h -> (w < nwl)%nat -> dot_w m w v = matvec (at_wl m w) v.
Proof.
  intros Hm Hw. destruct m as [ms|m]; simpl in *; auto.
  destruct Hm as [H1 H2]. unfold broadcast. destruct (matvec m v) as [|x [|y l]] eqn:E; auto.
  assert (length (matvec m v) = h) by (rewrite matvec_length; auto). rewrite E in H. simpl in H.
  destruct m as [|row m]; simpl in H1; [lia|]. simpl. rewrite H2 by (simpl; auto). rewrite <- H. auto.
Qed.

Lemma dot_w_abs_sum A nwl h w v : abs_stored A nwl h -> (w < nwl)%nat -> length v = h ->
  rsum (dot_w A w v) = rsum (map (fun k => col_total (at_wl A w) k * nth k v 0) (seq 0 h)).
Proof.
  intros HA Hw Hv. destruct A as [ms|m]; simpl in *.
  - destruct HA as [nl [H1 H2]]. apply rsum_matvec with (nr := nl); auto. apply H2. apply nth_In. lia.
  - subst m. assert (E : matvec [repeat 0 h] v = [0]).
    { simpl. f_equal. rewrite (dot_nth _ _ h) by (auto; rewrite repeat_length; auto).
      apply rsum_map_0. intros k Hk. apply in_seq in Hk. rewrite nth_repeat_any by lia. lra. }
    rewrite E. simpl. rewrite rsum_repeat, rsum_map_0; [lra|].
    intros k Hk. unfold col_total. simpl. apply in_seq in Hk. rewrite nth_repeat_any by lia. lra.
Qed.

Lemma dot_w_sum m nwl h w v : stored_for m nwl h h -> (w < nwl)%nat -> length v = h ->
  rsum (dot_w m w v) = rsum (map (fun k => col_total (at_wl m w) k * nth k v 0) (seq 0 h)).
Proof.
  intros Hm Hw Hv. rewrite (dot_w_square m nwl h) by auto. apply rsum_matvec with (nr := h); auto.
  eapply stored_shape; eauto.
Qed.

Lemma dot_w_len m nwl h w v : stored_for m nwl h h -> (w < nwl)%nat -> length (dot_w m w v) = h.
Proof.
  intros Hm Hw. rewrite (dot_w_square m nwl h) by auto. rewrite matvec_length.
  destruct (stored_shape m nwl h h w Hm Hw). auto.
Qed.

Lemma interface_energy nwl h R T A w v : conserves nwl h R T A -> (w < nwl)%nat -> length v = h ->
  rsum (dot_w R w v) + rsum (dot_w T w v) + rsum (dot_w A w v) = rsum v.
Proof.
  intros [[HR [HT HA]] HS] Hw Hv.
  rewrite (dot_w_sum R nwl h), (dot_w_sum T nwl h), (dot_w_abs_sum A nwl h) by auto.
  rewrite <- !rsum_map_plus. rewrite (rsum_nth_seq v h Hv). apply rsum_map_ext.
  intros k Hk. apply in_seq in Hk. specialize (HS w k Hw ltac:(lia)).
  replace (nth k v 0) with ((col_total (at_wl R w) k + col_total (at_wl T w) k + col_total (at_wl A w) k) * nth k v 0) at 4
    by (rewrite HS; ring). ring.
Qed.

Lemma interface_passive nwl h R T A w v : passive nwl h R T A -> (w < nwl)%nat -> length v = h ->
  (forall x, In x v -> 0 <= x) ->
  rsum (dot_w R w v) + rsum (dot_w T w v) + rsum (dot_w A w v) <= rsum v.
Proof.
  intros [[HR [HT HA]] [_ HS]] Hw Hv Hp.
  rewrite (dot_w_sum R nwl h), (dot_w_sum T nwl h), (dot_w_abs_sum A nwl h) by auto.
  rewrite <- !rsum_map_plus. rewrite (rsum_nth_seq v h Hv). apply rsum_map_le.
  intros k Hk. apply in_seq in Hk. specialize (HS w k Hw ltac:(lia)).
  assert (0 <= nth k v 0) by (apply Hp, nth_In; lia). nra.
Qed.

Lemma dot_w_nonneg m nwl h w v : stored_for m nwl h h -> (w < nwl)%nat -> nonneg_matrix (at_wl m w) ->
  (forall x, In x v -> 0 <= x) -> forall x, In x (dot_w m w v) -> 0 <= x.
Proof.
  intros Hm Hw Hn Hv. rewrite (dot_w_square m nwl h) by auto. apply matvec_nonneg; auto.
Qed.

Lemma dot_w_abs_nonneg A nwl h w v : abs_stored A nwl h -> (w < nwl)%nat -> nonneg_matrix (at_wl A w) ->
  (forall x, In x v -> 0 <= x) -> 0 <= rsum (dot_w A w v).
Proof.
  intros HA Hw Hn Hv. destruct A as [ms|m]; simpl in *.
  - apply rsum_nonneg. apply matvec_nonneg; auto.
  - subst m. simpl. rewrite rsum_repeat.
    apply Rmult_le_pos; [apply pos_INR|].
    apply (matvec_nonneg [repeat 0 h] v Hn Hv). simpl. auto.
Qed.

Lemma keeps_power_sum h m v : keeps_power h m -> length v = h -> rsum (matvec m v) = rsum v.
Proof.
  intros [Hs [_ Hk]] Hv. rewrite (rsum_matvec m v h h) by auto. rewrite (rsum_nth_seq v h Hv).
  apply rsum_map_ext. intros k Hi. apply in_seq in Hi. rewrite Hk by lia. ring.
Qed.

(* ---------- single-wavelength view of the loop ---------- *)

Record wstate := mk_w { x_v : list R; x_r : R; x_t : R; x_a0 : R; x_a1 : R; x_A : R }.

Definition psum (w : nat) (l : list (list (list R))) : R := rsum (map (fun p => rsum (nth w p [])) l).

Definition view (w : nat) (st : mm_state) : wstate :=
  mk_w (nth w (s_vf1 st) []) (psum w (s_vr st)) (psum w (s_vt st)) (psum w (s_a0 st)) (psum w (s_a1 st))
       (rsum (map (fun p => nth w p 0) (s_A st))).

Definition w_f1 S (w : nat) x := matvec (m_down2up S) (x_v x).
Definition w_b1 S w x := diag_mul (nth w (m_D S) []) (w_f1 S w x).
Definition w_b2 S w x := dot_w (m_Rf2 S) w (w_b1 S w x).
Definition w_f2 S w x := diag_mul (nth w (m_D S) []) (w_b2 S w x).
Definition w_f2' S w x := matvec (m_up2down S) (w_f2 S w x).

Definition wpass (prof : bool) S w x : wstate :=
  mk_w (dot_w (m_Rb S) w (w_f2' S w x))
       (x_r x + rsum (dot_w (m_Tb S) w (w_f2' S w x)))
       (x_t x + rsum (dot_w (m_Tf2 S) w (w_b1 S w x)))
       (x_a0 x + rsum (dot_w (m_Ab S) w (w_f2' S w x)))
       (x_a1 x + rsum (dot_w (m_Af2 S) w (w_b1 S w x)))
       (x_A x + (rsum (w_f1 S w x) - rsum (w_b1 S w x)) +
                (rsum (w_b2 S w x) - rsum (if prof then w_f2 S w x else w_f2' S w x))).

Definition winit S w (v : list R) : wstate :=
  mk_w (dot_w (m_Tf S) w v) (rsum (dot_w (m_Rf S) w v)) 0 (rsum (dot_w (m_Af S) w v)) 0 0.

Lemma psum_app w l p : psum w (l ++ [p]) = psum w l + rsum (nth w p []).
Proof. unfold psum. rewrite map_app, rsum_app. simpl. lra. Qed.

Lemma nth_sums v w : nth w (sums v) 0 = rsum (nth w v []).
Proof.
  unfold sums. destruct (Nat.lt_ge_cases w (length v)).
  - apply nth_map_lt. auto.
  - rewrite !nth_overflow; auto. rewrite map_length. auto.
Qed.

Lemma nth_vminus u v n w : length u = n -> length v = n -> (w < n)%nat ->
  nth w (vminus u v) 0 = nth w u 0 - nth w v 0.
Proof. intros. unfold vminus. apply map2_nth; lia. Qed.

Section Loop.
  Variables (nwl h : nat) (S : mm_setup).
  Hypothesis HS : shaped nwl h S.

  Lemma lists_all : lists_wl (m_Rf S) nwl /\ lists_wl (m_Tf S) nwl /\ lists_wl (m_Af S) nwl /\
    lists_wl (m_Rb S) nwl /\ lists_wl (m_Tb S) nwl /\ lists_wl (m_Ab S) nwl /\
    lists_wl (m_Rf2 S) nwl /\ lists_wl (m_Tf2 S) nwl /\ lists_wl (m_Af2 S) nwl /\ length (m_D S) = nwl.
  Proof.
    destruct HS as [[A1 [A2 A3]] [B1 [B2 B3]] [C1 [C2 C3]] _ _ [D1 _]].
    repeat split; eauto using stored_lists, abs_lists.
  Qed.

  Lemma dotD_len v : length v = nwl -> length (dot_wl_D (m_D S) v) = nwl.
  Proof. intros H. unfold dot_wl_D. rewrite map2_length. destruct lists_all as [_ [_ [_ [_ [_ [_ [_ [_ [_ E]]]]]]]]]. lia. Qed.
  Lemma u2d_len m v : length v = nwl -> length (dot_wl_u2d m v) = nwl.
  Proof. intros H. unfold dot_wl_u2d. rewrite map_length. auto. Qed.

  Lemma pass_vf1 prof st : s_vf1 (pass prof S st) = dot_wl (m_Rb S) (mm_vf2' S st).
  Proof. destruct prof; reflexivity. Qed.

  Lemma mids st : length (s_vf1 st) = nwl ->
    length (mm_vf1 S st) = nwl /\ length (mm_vb1 S st) = nwl /\ length (mm_vb2 S st) = nwl /\
    length (mm_vf2 S st) = nwl /\ length (mm_vf2' S st) = nwl.
  Proof.
    intros H. destruct lists_all as [_ [_ [_ [L4 [L5 [L6 [L7 [L8 [L9 LD]]]]]]]]].
    assert (H1 : length (mm_vf1 S st) = nwl) by (apply u2d_len; auto).
    assert (H2 : length (mm_vb1 S st) = nwl) by (apply dotD_len; auto).
    assert (H3 : length (mm_vb2 S st) = nwl) by (apply dot_wl_length; auto).
    assert (H4 : length (mm_vf2 S st) = nwl) by (apply dotD_len; auto).
    assert (H5 : length (mm_vf2' S st) = nwl) by (apply u2d_len; auto). auto.
  Qed.

  Lemma pass_len prof st : length (s_vf1 st) = nwl -> length (s_vf1 (pass prof S st)) = nwl.
  Proof.
    intros H. rewrite pass_vf1. apply dot_wl_length; [apply lists_all|apply mids; auto].
  Qed.

  Lemma nth_D v w : length v = nwl -> (w < nwl)%nat ->
    nth w (dot_wl_D (m_D S) v) [] = diag_mul (nth w (m_D S) []) (nth w v []).
  Proof.
    intros Hv Hw. unfold dot_wl_D. destruct lists_all as [_ [_ [_ [_ [_ [_ [_ [_ [_ E]]]]]]]]].
    apply map2_nth; lia.
  Qed.
  Lemma nth_u2d m v w : length v = nwl -> (w < nwl)%nat -> nth w (dot_wl_u2d m v) [] = matvec m (nth w v []).
  Proof. intros Hv Hw. unfold dot_wl_u2d. apply nth_map_lt. lia. Qed.

  Lemma view_pass prof st w : length (s_vf1 st) = nwl -> (w < nwl)%nat ->
    view w (pass prof S st) = wpass prof S w (view w st).
  Proof.
    intros Hl Hw. destruct (mids st Hl) as [M1 [M2 [M3 [M4 M5]]]].
    destruct lists_all as [_ [_ [_ [L4 [L5 [L6 [L7 [L8 [L9 LD]]]]]]]]].
    assert (E1 : nth w (mm_vf1 S st) [] = w_f1 S w (view w st)) by (apply nth_u2d; auto).
    assert (E2 : nth w (mm_vb1 S st) [] = w_b1 S w (view w st)).
    { unfold mm_vb1, w_b1. rewrite nth_D, E1; auto. }
    assert (E3 : nth w (mm_vb2 S st) [] = w_b2 S w (view w st)).
    { unfold mm_vb2, w_b2. rewrite dot_wl_nth with (nwl := nwl), E2; auto. }
    assert (E4 : nth w (mm_vf2 S st) [] = w_f2 S w (view w st)).
    { unfold mm_vf2, w_f2. rewrite nth_D, E3; auto. }
    assert (E5 : nth w (mm_vf2' S st) [] = w_f2' S w (view w st)).
    { unfold mm_vf2', w_f2'. rewrite nth_u2d, E4; auto. }
    assert (EA : forall u v, length u = nwl -> length v = nwl ->
        nth w (vminus (sums u) (sums v)) 0 = rsum (nth w u []) - rsum (nth w v [])).
    { intros u v Hu Hv. rewrite nth_vminus with (n := nwl) by (auto; unfold sums; rewrite map_length; auto).
      rewrite !nth_sums. auto. }
    unfold wpass. rewrite <- E1, <- E2, <- E3, <- E4, <- E5.
    unfold view at 1. rewrite pass_vf1.
    destruct prof; unfold pass, pass_prof, pass_noprof, append_pass;
      cbn [s_vf1 s_vr s_vt s_a0 s_a1 s_A];
      rewrite !psum_app, map_app, rsum_app;
      rewrite !dot_wl_nth with (nwl := nwl) by auto;
      cbn [map rsum]; rewrite !EA by auto; unfold view; cbn [x_v x_r x_t x_a0 x_a1 x_A]; f_equal; lra.
  Qed.

  Lemma view_init v0 w : incident nwl h v0 -> (w < nwl)%nat ->
    view w (mm_init S v0) = winit S w (nth w v0 []).
  Proof.
    intros [Hv _] Hw. destruct lists_all as [L1 [L2 [L3 _]]].
    unfold view, mm_init, winit, psum. cbn [s_vf1 s_vr s_vt s_a0 s_a1 s_A map rsum].
    rewrite !dot_wl_nth with (nwl := nwl) by auto. f_equal; lra.
  Qed.

  Lemma init_len v0 : incident nwl h v0 -> length (s_vf1 (mm_init S v0)) = nwl.
  Proof. intros [Hv _]. apply dot_wl_length; auto. apply lists_all. Qed.

  (* iteration *)
  Fixpoint miter (prof : bool) n st := match n with O => st | Datatypes.S k => miter prof k (pass prof S st) end.
  Fixpoint witer (prof : bool) w n x := match n with O => x | Datatypes.S k => witer prof w k (wpass prof S w x) end.

  Lemma miter_len prof n : forall st, length (s_vf1 st) = nwl -> length (s_vf1 (miter prof n st)) = nwl.
  Proof. induction n; intros st H; simpl; auto. apply IHn, pass_len. auto. Qed.

  Lemma view_iter prof w n : (w < nwl)%nat -> forall st, length (s_vf1 st) = nwl ->
    view w (miter prof n st) = witer prof w n (view w st).
  Proof.
    intros Hw. induction n; intros st H; simpl; auto. rewrite IHn by (apply pass_len; auto).
    rewrite view_pass; auto.
  Qed.

  Lemma miter_S prof n : forall st, miter prof (Datatypes.S n) st = pass prof S (miter prof n st).
  Proof. induction n; intros st; [reflexivity|]. simpl in *. rewrite <- IHn. auto. Qed.
  Lemma witer_S prof w n : forall x, witer prof w (Datatypes.S n) x = wpass prof S w (witer prof w n x).
  Proof. induction n; intros x; [reflexivity|]. simpl in *. rewrite <- IHn. auto. Qed.
  Lemma witer_add prof w a b : forall x, witer prof w (a + b) x = witer prof w b (witer prof w a x).
  Proof. induction a; intros x; simpl; auto. Qed.

  Lemma mm_loop_iter prof fuel : forall st st', mm_loop prof S fuel st = Some st' ->
    exists n, (n <= fuel)%nat /\ st' = miter prof n st /\ go_on S st' = false /\
              forall k, (k < n)%nat -> go_on S (miter prof k st) = true.
  Proof.
    induction fuel; intros st st' H; simpl in H; destruct (go_on S st) eqn:E; try discriminate.
    - inversion H; subst. exists 0%nat. repeat split; auto. intros; lia.
    - destruct (IHfuel _ _ H) as [n [Hn [E1 [E2 E3]]]].
      exists (Datatypes.S n). split; [lia|]. split; [auto|]. split; [auto|].
      intros [|k] Hk; simpl; auto. apply E3. lia.
    - inversion H; subst. exists 0%nat. repeat split; auto; [lia|]. intros; lia.
  Qed.

  Lemma go_on_false st w : go_on S st = false -> (w < length (s_vf1 st))%nat ->
    rsum (nth w (s_vf1 st) []) <= m_thresh S.
  Proof.
    intros H Hw. unfold go_on in H.
    destruct (Rle_dec (rsum (nth w (s_vf1 st) [])) (m_thresh S)) as [|Hn]; auto. exfalso.
    assert (E : existsb (fun p => Rltb (m_thresh S) p) (sums (s_vf1 st)) = true).
    { apply existsb_exists. exists (rsum (nth w (s_vf1 st) [])). split.
      - unfold sums. apply in_map. apply nth_In. auto.
      - apply Rltb_true. lra. }
    congruence.
  Qed.

  (* ---- lengths of the intermediate vectors ---- *)
  Definition wlen (x : wstate) : Prop := length (x_v x) = h.

  Lemma D_len w : (w < nwl)%nat -> length (nth w (m_D S) []) = h.
  Proof. intros Hw. destruct HS as [_ _ _ _ _ [D1 D2]]. apply D2. apply nth_In. lia. Qed.

  Lemma w_lens w x : (w < nwl)%nat -> wlen x ->
    length (w_f1 S w x) = h /\ length (w_b1 S w x) = h /\ length (w_b2 S w x) = h /\
    length (w_f2 S w x) = h /\ length (w_f2' S w x) = h.
  Proof.
    intros Hw Hx. destruct HS as [_ _ [C1 _] [U1 _] [V1 _] _].
    assert (H1 : length (w_f1 S w x) = h) by (unfold w_f1; rewrite matvec_length; auto).
    assert (H2 : length (w_b1 S w x) = h) by (apply diag_mul_length; auto; apply D_len; auto).
    assert (H3 : length (w_b2 S w x) = h) by (eapply dot_w_len; eauto).
    assert (H4 : length (w_f2 S w x) = h) by (apply diag_mul_length; auto; apply D_len; auto).
    assert (H5 : length (w_f2' S w x) = h) by (unfold w_f2'; rewrite matvec_length; auto). auto.
  Qed.

  Lemma wlen_pass prof w x : (w < nwl)%nat -> wlen x -> wlen (wpass prof S w x).
  Proof. intros Hw Hx. destruct HS as [_ [B1 _] _ _ _ _]. unfold wlen. simpl. eapply dot_w_len; eauto. Qed.
  Lemma wlen_iter prof w n : (w < nwl)%nat -> forall x, wlen x -> wlen (witer prof w n x).
  Proof. intros Hw. induction n; intros x H; simpl; auto. apply IHn, wlen_pass; auto. Qed.
  Lemma wlen_init w v : (w < nwl)%nat -> wlen (winit S w v).
  Proof. intros Hw. destruct HS as [[_ [A2 _]] _ _ _ _ _]. unfold wlen. simpl. eapply dot_w_len; eauto. Qed.
End Loop.

Lemma ec_shaped nwl h S : energy_conserving nwl h S -> shaped nwl h S.
Proof.
  intros [[A _] [B _] [C _] [U _] [V _] D]. constructor; auto.
Qed.
Lemma pa_shaped nwl h S : passive_structure nwl h S -> shaped nwl h S.
Proof.
  intros [[A _] [B _] [C _] [U _] [V _] D _]. constructor; auto.
Qed.

Definition total (x : wstate) : R := x_r x + x_t x + x_a0 x + x_a1 x + x_A x + rsum (x_v x).

Section Energy.
  Variables (nwl h : nat) (S : mm_setup).
  Hypothesis HE : energy_conserving nwl h S.
  Let HS := ec_shaped nwl h S HE.

  Lemma total_pass prof w x : (w < nwl)%nat -> wlen h x -> total (wpass prof S w x) = total x.
  Proof.
    intros Hw Hx. destruct (w_lens nwl h S HS w x Hw Hx) as [L1 [L2 [L3 [L4 L5]]]].
    pose proof (interface_energy nwl h _ _ _ w (w_f2' S w x) (ec_rear _ _ _ HE) Hw L5) as E1.
    pose proof (interface_energy nwl h _ _ _ w (w_b1 S w x) (ec_back _ _ _ HE) Hw L2) as E2.
    assert (E3 : rsum (w_f1 S w x) = rsum (x_v x)) by (apply (keeps_power_sum h); auto; apply (ec_d2u _ _ _ HE)).
    assert (E4 : rsum (w_f2' S w x) = rsum (w_f2 S w x)) by (apply (keeps_power_sum h); auto; apply (ec_u2d _ _ _ HE)).
    fold (w_b2 S w x) in E2.
    unfold total, wpass. cbn [x_v x_r x_t x_a0 x_a1 x_A].
    destruct prof; lra.
  Qed.

  Lemma total_iter prof w n : (w < nwl)%nat -> forall x, wlen h x -> total (witer S prof w n x) = total x.
  Proof.
    intros Hw. induction n; intros x Hx; simpl; auto.
    rewrite IHn by (apply (wlen_pass nwl h S HS); auto). apply total_pass; auto.
  Qed.

  Lemma total_init w v : (w < nwl)%nat -> length v = h -> total (winit S w v) = rsum v.
  Proof.
    intros Hw Hv. pose proof (interface_energy nwl h _ _ _ w v (ec_front _ _ _ HE) Hw Hv).
    unfold total, winit. cbn [x_v x_r x_t x_a0 x_a1 x_A]. lra.
  Qed.

  Lemma energy_loop prof v0 fuel st : incident nwl h v0 ->
    mm_loop prof S fuel (mm_init S v0) = Some st ->
    forall w, (w < nwl)%nat -> total (view w st) = rsum (nth w v0 []) /\ still_travelling st w <= m_thresh S.
  Proof.
    intros Hi HL w Hw. destruct (mm_loop_iter S prof fuel _ _ HL) as [n [_ [E1 [E2 _]]]].
    assert (Hl := init_len nwl h S HS v0 Hi).
    split.
    - rewrite E1, (view_iter nwl h S HS) by auto. rewrite (view_init nwl h S HS v0 w Hi Hw).
      rewrite total_iter by (auto; apply (wlen_init nwl h S HS); auto).
      apply total_init; auto. destruct Hi as [Hi1 Hi2]. apply Hi2, nth_In. lia.
    - apply go_on_false with (S := S); auto. rewrite E1, (miter_len nwl h S HS); auto.
  Qed.
End Energy.

Section Passive.
  Variables (nwl h : nat) (S : mm_setup).
  Hypothesis HP : passive_structure nwl h S.
  Let HS := pa_shaped nwl h S HP.

  Definition vpos (v : list R) : Prop := forall x, In x v -> 0 <= x.

  Lemma D_bounds w : forall x, In x (nth w (m_D S) []) -> 0 <= x <= 1.
  Proof.
    intros x Hx. destruct (Nat.lt_ge_cases w (length (m_D S))) as [H|H].
    - apply (pa_att _ _ _ HP (nth w (m_D S) []) x); [apply nth_In; auto|auto].
    - rewrite nth_overflow in Hx by auto. destruct Hx.
  Qed.

  Lemma w_pos w x : (w < nwl)%nat -> wlen h x -> vpos (x_v x) ->
    vpos (w_f1 S w x) /\ vpos (w_b1 S w x) /\ vpos (w_b2 S w x) /\ vpos (w_f2 S w x) /\ vpos (w_f2' S w x) /\
    rsum (w_f1 S w x) = rsum (x_v x) /\ rsum (w_b1 S w x) <= rsum (w_f1 S w x) /\
    rsum (w_f2 S w x) <= rsum (w_b2 S w x) /\ rsum (w_f2' S w x) = rsum (w_f2 S w x).
  Proof.
    intros Hw Hx Hp. destruct (w_lens nwl h S HS w x Hw Hx) as [L1 [L2 [L3 [L4 L5]]]].
    destruct (pa_d2u _ _ _ HP) as [Dsh [Dnn _]]. destruct (pa_u2d _ _ _ HP) as [Ush [Unn _]].
    destruct (pa_back _ _ _ HP) as [[B1 [B2 B3]] [Bnn _]].
    assert (P1 : vpos (w_f1 S w x)) by (exact (matvec_nonneg _ _ Dnn Hp)).
    destruct (diag_mul_bounds (nth w (m_D S) []) (w_f1 S w x) (D_bounds w) P1) as [P2 Q2].
    assert (P3 : vpos (w_b2 S w x)) by (exact (dot_w_nonneg _ nwl h w _ B1 Hw (proj1 (Bnn w Hw)) P2)).
    destruct (diag_mul_bounds (nth w (m_D S) []) (w_b2 S w x) (D_bounds w) P3) as [P4 Q4].
    assert (P5 : vpos (w_f2' S w x)) by (exact (matvec_nonneg _ _ Unn P4)).
    split; [auto|]. split; [exact P2|]. split; [auto|]. split; [exact P4|]. split; [auto|].
    split; [apply (keeps_power_sum h); auto; apply (pa_d2u _ _ _ HP)|]. split; [exact Q2|]. split; [exact Q4|].
    apply (keeps_power_sum h); auto; apply (pa_u2d _ _ _ HP).
  Qed.

  (* everything is non-negative, grows, and the total does not grow *)
  Definition wpos (x : wstate) : Prop :=
    vpos (x_v x) /\ 0 <= x_r x /\ 0 <= x_t x /\ 0 <= x_a0 x /\ 0 <= x_a1 x /\ 0 <= x_A x.

  Lemma pass_grows prof w x : (w < nwl)%nat -> wlen h x -> vpos (x_v x) ->
    let y := wpass prof S w x in
    vpos (x_v y) /\ x_r x <= x_r y /\ x_t x <= x_t y /\ x_a0 x <= x_a0 y /\ x_a1 x <= x_a1 y /\ x_A x <= x_A y /\
    total y <= total x.
  Proof.
    intros Hw Hx Hp. destruct (w_lens nwl h S HS w x Hw Hx) as [L1 [L2 [L3 [L4 L5]]]].
    destruct (w_pos w x Hw Hx Hp) as [P1 [P2 [P3 [P4 [P5 [Q1 [Q2 [Q3 Q4]]]]]]]].
    destruct (pa_back _ _ _ HP) as [[B1 [B2 B3]] [Bnn _]].
    destruct (pa_rear _ _ _ HP) as [[R1 [R2 R3]] [Rnn _]].
    destruct (Bnn w Hw) as [Bn1 [Bn2 Bn3]]. destruct (Rnn w Hw) as [Rn1 [Rn2 Rn3]].
    pose proof (interface_passive nwl h _ _ _ w (w_f2' S w x) (pa_rear _ _ _ HP) Hw L5 P5) as E1.
    pose proof (interface_passive nwl h _ _ _ w (w_b1 S w x) (pa_back _ _ _ HP) Hw L2 P2) as E2.
    fold (w_b2 S w x) in E2.
    assert (T1 : 0 <= rsum (dot_w (m_Tb S) w (w_f2' S w x))).
    { apply rsum_nonneg. eapply dot_w_nonneg; eauto. }
    assert (T2 : 0 <= rsum (dot_w (m_Tf2 S) w (w_b1 S w x))).
    { apply rsum_nonneg. eapply dot_w_nonneg; eauto. }
    assert (T3 : 0 <= rsum (dot_w (m_Ab S) w (w_f2' S w x))) by (eapply dot_w_abs_nonneg; eauto).
    assert (T4 : 0 <= rsum (dot_w (m_Af2 S) w (w_b1 S w x))) by (eapply dot_w_abs_nonneg; eauto).
    unfold total, wpass. cbn [x_v x_r x_t x_a0 x_a1 x_A].
    split; [exact (dot_w_nonneg _ nwl h w _ R1 Hw Rn1 P5)|].
    destruct prof; repeat split; lra.
  Qed.

  Lemma iter_grows prof w n : (w < nwl)%nat -> forall x, wlen h x -> vpos (x_v x) ->
    let y := witer S prof w n x in
    vpos (x_v y) /\ x_r x <= x_r y /\ x_t x <= x_t y /\ x_a0 x <= x_a0 y /\ x_a1 x <= x_a1 y /\ x_A x <= x_A y /\
    total y <= total x.
  Proof.
    intros Hw. induction n; intros x Hx Hp; simpl; [repeat split; auto; lra|].
    destruct (pass_grows prof w x Hw Hx Hp) as [G1 [G2 [G3 [G4 [G5 [G6 G7]]]]]].
    destruct (IHn (wpass prof S w x) (wlen_pass nwl h S HS prof w x Hw Hx) G1) as [I1 [I2 [I3 [I4 [I5 [I6 I7]]]]]].
    simpl in *. repeat split; auto; lra.
  Qed.

  Lemma init_pos w v : (w < nwl)%nat -> length v = h -> vpos v ->
    wpos (winit S w v) /\ total (winit S w v) <= rsum v.
  Proof.
    intros Hw Hv Hp. destruct (pa_front _ _ _ HP) as [[F1 [F2 F3]] [Fnn _]].
    destruct (Fnn w Hw) as [Fn1 [Fn2 Fn3]].
    pose proof (interface_passive nwl h _ _ _ w v (pa_front _ _ _ HP) Hw Hv Hp) as E.
    unfold wpos, total, winit. cbn [x_v x_r x_t x_a0 x_a1 x_A].
    split; [|lra]. split; [exact (dot_w_nonneg _ nwl h w _ F2 Hw Fn2 Hp)|].
    split; [apply rsum_nonneg; eapply dot_w_nonneg; eauto|]. split; [lra|].
    split; [eapply dot_w_abs_nonneg; eauto|]. lra.
  Qed.

  Lemma passive_loop prof v0 fuel st : incident nwl h v0 -> nonneg_power v0 ->
    mm_loop prof S fuel (mm_init S v0) = Some st ->
    forall w, (w < nwl)%nat -> wpos (view w st) /\ total (view w st) <= rsum (nth w v0 []).
  Proof.
    intros Hi Hnn HL w Hw. destruct (mm_loop_iter S prof fuel _ _ HL) as [n [_ [E1 _]]].
    assert (Hl := init_len nwl h S HS v0 Hi).
    destruct Hi as [Hi1 Hi2].
    assert (Hin : In (nth w v0 []) v0) by (apply nth_In; lia).
    destruct (init_pos w (nth w v0 []) Hw (Hi2 _ Hin) (fun x Hx => Hnn _ x Hin Hx)) as [I1 I2].
    rewrite E1, (view_iter nwl h S HS) by auto. rewrite (view_init nwl h S HS v0 w (conj Hi1 Hi2) Hw).
    destruct I1 as [J1 [J2 [J3 [J4 [J5 J6]]]]].
    destruct (iter_grows prof w n Hw (winit S w (nth w v0 [])) (wlen_init nwl h S HS w _ Hw) J1)
      as [G1 [G2 [G3 [G4 [G5 [G6 G7]]]]]]. cbv zeta in *.
    unfold wpos. repeat split; auto; lra.
  Qed.
End Passive.
