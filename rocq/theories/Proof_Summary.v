(* Proofs about theta_summary *)
From Coq Require Import Reals List ZArith Bool Lia Lra.
From Verif Require Import Base Lib Model_Angles Proof_Angles Spec_Angles Proof_AnglesProps
  Model_Ideal Spec_Matrix Proof_Ideal Proof_IdealProps.
Import ListNotations.
Open Scope R_scope.

Lemma pick_cons {A} keep (r : arow) rows (x : A) l :
  pick keep (r :: rows) (x :: l) = if keep (a_ring r) then x :: pick keep rows l else pick keep rows l.
Proof. unfold pick. simpl. destruct (keep (a_ring r)); auto. Qed.

Lemma pick_sum_over_rings rings : forall rows l, NoDup rings -> length l = length rows ->
  (forall r, In r rows -> In (a_ring r) rings) ->
  rsum (map (fun o => rsum (pick (Nat.eqb o) rows l)) rings) = rsum l.
Proof.
  induction rows as [|r rows IH]; intros [|x l] Hnd Hl Hin; simpl in Hl; try lia.
  - apply rsum_map_0. intros. reflexivity.
  - rewrite (rsum_map_ext _ (fun o => (if Nat.eqb o (a_ring r) then x else 0) + rsum (pick (Nat.eqb o) rows l))).
    + rewrite rsum_map_plus, IH; auto.
      * simpl. f_equal. assert (Hr : In (a_ring r) rings) by (apply Hin; simpl; auto). clear - Hnd Hr.
        induction rings as [|o rings IH]; [destruct Hr|]. inversion Hnd; subst. simpl.
        destruct (Nat.eqb_spec o (a_ring r)) as [E|E].
        -- rewrite rsum_map_0; [lra|]. intros y Hy. destruct (Nat.eqb_spec y (a_ring r)); auto. congruence.
        -- destruct Hr as [Hr|Hr]; [congruence|]. rewrite IH by auto. lra.
      * intros; apply Hin; simpl; auto.
    + intros o _. rewrite pick_cons. destruct (Nat.eqb o (a_ring r)); simpl; lra.
Qed.

Lemma mean_times_len l : l <> [] -> weighted_mean l = rsum l.
Proof.
  intros Hl. unfold weighted_mean, mean. destruct l; [congruence|].
  field. apply not_0_INR. simpl. lia.
Qed.

Lemma weighted_mean_sum l : weighted_mean l = rsum l.
Proof.
  destruct l; [unfold weighted_mean, mean; simpl; lra|]. apply mean_times_len. discriminate.
Qed.

(* picking commutes with a linear combination of rows *)
Lemma pick_nth {A B} keep rows (f : A -> B) l : pick keep rows (map f l) = map f (pick keep rows l).
Proof.
  unfold pick. revert l. induction rows; intros [|x l]; simpl; auto.
  destruct (keep (a_ring a)); simpl; rewrite IHrows; auto.
Qed.

(* column positions of a ring *)
Definition ring_cols (av : list arow) (i : nat) : list nat :=
  pick (Nat.eqb i) av (seq 0 (length av)).

Lemma pick_by_index keep av : forall (row : list R), length row = length av ->
  pick keep av row = map (fun k => nth k row 0) (pick keep av (seq 0 (length av))).
Proof.
  intros row Hl. rewrite <- pick_nth. f_equal. rewrite <- (map_nth_seq row 0) at 1. rewrite Hl. reflexivity.
Qed.

Lemma mean_rows (mat : list (list R)) cols :
  rsum (map (fun row => mean (map (fun k => nth k row 0) cols)) mat) =
  mean (map (fun k => col_total mat k) cols).
Proof.
  unfold mean. unfold col_total.
  rewrite (rsum_map_ext _ (fun row => / INR (length cols) * rsum (map (fun k => nth k row 0) cols))).
  - rewrite rsum_map_scal, rsum_swap, map_length. unfold Rdiv. ring.
  - intros. rewrite map_length. unfold Rdiv. ring.
Qed.

Lemma rings_of_in l r : In r l -> In (a_ring r) (rings_of l).
Proof. intros H. unfold rings_of. apply nodup_In. apply in_map. auto. Qed.

Lemma theta_summary_columns mat av_in av_out ci :
  length av_out = length mat -> (forall row, In row mat -> length row = length av_in) ->
  (ci < length (rings_of av_in))%nat ->
  col_total (theta_summary mat av_in av_out (rings_of av_in) (rings_of av_out)) ci =
  mean (map (col_total mat) (ring_cols av_in (nth ci (rings_of av_in) 0%nat))).
Proof.
  intros Hout Hrow Hci. unfold col_total at 1, theta_summary. rewrite map_map.
  set (meaned := map (fun row => map (fun i => mean (pick (Nat.eqb i) av_in row)) (rings_of av_in)) mat).
  rewrite (rsum_map_ext _ (fun o => rsum (pick (Nat.eqb o) av_out (map (fun row => nth ci row 0) meaned)))).
  - rewrite pick_sum_over_rings.
    + unfold meaned. rewrite map_map.
      rewrite (rsum_map_ext _ (fun row => mean (map (fun k => nth k row 0) (ring_cols av_in (nth ci (rings_of av_in) 0%nat))))).
      * apply mean_rows.
      * intros row Hr. rewrite nth_map_lt with (da := 0%nat) by auto.
        unfold ring_cols. rewrite <- pick_by_index by auto. reflexivity.
    + apply NoDup_nodup.
    + unfold meaned. rewrite !map_length. auto.
    + intros. apply rings_of_in. auto.
  - intros o Ho. rewrite nth_map_lt with (da := 0%nat) by (rewrite seq_length; auto).
    rewrite nth_seq0 by auto. apply weighted_mean_sum.
Qed.

(* membership in ring_cols *)
Lemma ring_cols_spec av i k : In k (ring_cols av i) <->
  exists r, nth_error av k = Some r /\ a_ring r = i.
Proof.
  unfold ring_cols, pick.
  assert (G : forall av o, In k (map snd (filter (fun p : arow * nat => Nat.eqb i (a_ring (fst p))) (combine av (seq o (length av))))) <->
     exists r, (o <= k)%nat /\ nth_error av (k - o) = Some r /\ a_ring r = i).
  { induction av0 as [|r av0 IH]; intros o; simpl.
    - split; [intros []|]. intros [r [_ [H _]]]. destruct (k - o)%nat; discriminate.
    - assert (D : (exists r0, (o <= k)%nat /\ nth_error (r :: av0) (k - o) = Some r0 /\ a_ring r0 = i) <->
          (k = o /\ a_ring r = i) \/ (exists r0, (S o <= k)%nat /\ nth_error av0 (k - S o) = Some r0 /\ a_ring r0 = i)).
      { split.
        - intros [r0 [H1 [H2 H3]]]. destruct (Nat.eq_dec k o) as [->|Hne].
          + rewrite Nat.sub_diag in H2. simpl in H2. inversion H2; subst. auto.
          + right. exists r0. split; [lia|]. split; auto. replace (k - o)%nat with (S (k - S o)) in H2 by lia. exact H2.
        - intros [[-> H]|[r0 [H1 [H2 H3]]]].
          + exists r. rewrite Nat.sub_diag. simpl. auto.
          + exists r0. split; [lia|]. split; auto. replace (k - o)%nat with (S (k - S o)) by lia. exact H2. }
      rewrite D, <- IH. destruct (Nat.eqb_spec i (a_ring r)) as [E|E]; simpl.
      + split; [intros [H|H]; auto|]. intros [[H _]|H]; auto.
      + split; [auto|]. intros [[_ H]|H]; [congruence|auto]. }
  rewrite (G av 0%nat). split.
  - intros [r [_ [H1 H2]]]. rewrite Nat.sub_0_r in H1. eauto.
  - intros [r [H1 H2]]. exists r. rewrite Nat.sub_0_r. repeat split; auto. lia.
Qed.

Lemma ring_cols_channels av i : ring_cols av i = channels_of_ring av i.
Proof.
  unfold ring_cols, channels_of_ring, pick.
  assert (G : forall av o, map snd (filter (fun p : arow * nat => Nat.eqb i (a_ring (fst p))) (combine av (seq o (length av)))) =
     filter (fun k => match nth_error av (k - o) with Some r => Nat.eqb (a_ring r) i | None => false end) (seq o (length av))).
  { induction av0 as [|r av0 IH]; intros o; simpl; auto.
    rewrite Nat.sub_diag. simpl. rewrite (Nat.eqb_sym i).
    assert (E : filter (fun k => match nth_error av0 (k - S o) with Some r => Nat.eqb (a_ring r) i | None => false end) (seq (S o) (length av0)) =
                filter (fun k => match nth_error (r :: av0) (k - o) with Some r => Nat.eqb (a_ring r) i | None => false end) (seq (S o) (length av0))).
    { apply filter_ext_in. intros k Hk. apply in_seq in Hk. replace (k - o)%nat with (S (k - S o)) by lia. reflexivity. }
    rewrite <- E, <- IH. destruct (Nat.eqb (a_ring r) i); reflexivity. }
  rewrite (G av 0%nat). apply filter_ext. intros k. rewrite Nat.sub_0_r. reflexivity.
Qed.

Lemma theta_summary_grid_columns front mat ncols g ci :
  (length mat <= length (g_av g))%nat ->
  (forall row, In row mat -> length row = ncols) ->
  length (in_part front ncols g) = ncols ->
  (ci < length (rings_of (in_part front ncols g)))%nat ->
  col_total (theta_summary_grid front mat ncols g) ci =
  average (map (col_total mat) (channels_of_ring (in_part front ncols g) (nth ci (rings_of (in_part front ncols g)) 0%nat))).
Proof.
  intros Hm Hr Hin Hci. unfold theta_summary_grid. fold (in_part front ncols g).
  rewrite <- ring_cols_channels. change average with mean.
  apply theta_summary_columns; auto.
  - rewrite firstn_length. lia.
  - intros row H. rewrite Hin. auto.
Qed.

(* one ring, two azimuth bins, all power absorbed: the summed absorption is 2 *)
Lemma summary_A_doubles : exists g mat A_mat ncols,
  make_angle_vector 1 (PI / 2) 2 SpSin = Ok g /\
  (length mat = length (g_av g) /\ length (g_av g) = 2 * ncols)%nat /\
  (forall row, In row mat \/ In row A_mat -> length row = ncols) /\
  (forall k, (k < ncols)%nat -> col_total mat k + col_total A_mat k = 1) /\
  col_total (theta_summary_grid true mat ncols g) 0 + col_total (theta_summary_A_grid A_mat ncols g) 0 = 2.
Proof.
  pose proof PI_RGT_0 as HP.
  assert (Hv : valid_request 1 (PI / 2) 2) by (repeat split; try lia; lra).
  set (g := grid_of_edges (theta_edges SpSin 1) (PI / 2) 2).
  assert (Hg : make_angle_vector 1 (PI / 2) 2 SpSin = Ok g) by reflexivity.
  assert (HK : forall i, (i < 2)%nat -> ring_count 1 2 i = 2%nat).
  { intros i Hi. unfold ring_count.
    assert (E : forall k, k = 1%nat -> Z.to_nat (Zceil (2 * INR k)) = 2%nat).
    { intros k ->. replace (Zceil (2 * INR 1)) with 2%Z; [reflexivity|]. symmetry. apply Zceil_unique. simpl. lra. }
    destruct (Nat.ltb_spec i 1); apply E; lia. }
  assert (Hav : g_av g = [mk_arow 0 (theta_mid SpSin 1 0) (phi_mid 1 (PI / 2) 2 0 0);
                          mk_arow 0 (theta_mid SpSin 1 0) (phi_mid 1 (PI / 2) 2 0 1);
                          mk_arow 1 (theta_mid SpSin 1 1) (phi_mid 1 (PI / 2) 2 1 0);
                          mk_arow 1 (theta_mid SpSin 1 1) (phi_mid 1 (PI / 2) 2 1 1)]).
  { unfold g. rewrite av_closed by (auto; lra). simpl seq. unfold flat_map, ring_rows.
    rewrite !HK by lia. reflexivity. }
  exists g, [[0;0];[0;0];[0;0];[0;0]], [[1;1]], 2%nat.
  split; [auto|]. rewrite Hav. split; [simpl; auto|].
  split; [intros row [H|H]; simpl in H; intuition; subst; auto|].
  split.
  { intros [|[|k]] Hk; [| |lia]; unfold col_total; simpl; lra. }
  rewrite theta_summary_grid_columns.
  - unfold theta_summary_A_grid. unfold in_part. rewrite Hav. simpl.
    unfold rings_of. simpl. unfold channels_of_ring, pick, average, col_total. simpl. lra.
  - rewrite Hav. simpl. auto.
  - intros row H; simpl in H; intuition; subst; auto.
  - unfold in_part. rewrite Hav. auto.
  - unfold in_part. rewrite Hav. unfold rings_of. simpl. lia.
Qed.

(* ---- absorption summary ---- *)

Lemma in_part_front ncols g : in_part true ncols g = firstn ncols (g_av g).
Proof. reflexivity. Qed.

Lemma theta_summary_A_entry A_mat ncols g l row ci :
  (ncols <= length (g_av g))%nat -> length row = ncols ->
  nth_error A_mat l = Some row ->
  (ci < length (rings_of (in_part true ncols g)))%nat ->
  nth ci (nth l (theta_summary_A_grid A_mat ncols g) []) 0 =
  rsum (map (fun k => nth k row 0)
    (channels_of_ring (in_part true ncols g) (nth ci (rings_of (in_part true ncols g)) 0%nat))).
Proof.
  intros Hn Hr Hl Hci. rewrite in_part_front in *.
  unfold theta_summary_A_grid, theta_summary_A.
  assert (Hll : (l < length A_mat)%nat) by (apply nth_error_Some; congruence).
  rewrite nth_map_lt with (da := []) by auto.
  rewrite (nth_error_nth A_mat l [] Hl).
  rewrite nth_map_lt with (da := 0%nat) by auto.
  rewrite <- ring_cols_channels. unfold ring_cols. rewrite <- pick_by_index; [reflexivity|].
  rewrite firstn_length. lia.
Qed.

Lemma theta_summary_A_columns A_mat ncols g ci :
  (ncols <= length (g_av g))%nat -> (forall row, In row A_mat -> length row = ncols) ->
  (ci < length (rings_of (in_part true ncols g)))%nat ->
  col_total (theta_summary_A_grid A_mat ncols g) ci =
  rsum (map (col_total A_mat)
    (channels_of_ring (in_part true ncols g) (nth ci (rings_of (in_part true ncols g)) 0%nat))).
Proof.
  intros Hn Hr Hci. rewrite in_part_front in *.
  unfold theta_summary_A_grid, theta_summary_A, col_total. rewrite map_map, rsum_swap.
  apply rsum_map_ext. intros row Hin. rewrite nth_map_lt with (da := 0%nat) by auto.
  rewrite <- ring_cols_channels. unfold ring_cols. rewrite <- pick_by_index; [reflexivity|].
  rewrite firstn_length, (Hr row Hin). lia.
Qed.

Lemma channels_bound av i k : In k (channels_of_ring av i) -> (k < length av)%nat.
Proof.
  rewrite <- ring_cols_channels, ring_cols_spec. intros [r [H _]]. apply nth_error_Some. congruence.
Qed.

Lemma channels_nonempty av ci : (ci < length (rings_of av))%nat ->
  channels_of_ring av (nth ci (rings_of av) 0%nat) <> [].
Proof.
  intros Hci E. assert (Hin : In (nth ci (rings_of av) 0%nat) (rings_of av)) by (apply nth_In; auto).
  unfold rings_of in Hin at 2. apply nodup_In, in_map_iff in Hin. destruct Hin as [r [Hr Hin]].
  apply In_nth_error in Hin. destruct Hin as [k Hk].
  assert (K : In k (ring_cols av (nth ci (rings_of av) 0%nat))) by (apply ring_cols_spec; eauto).
  rewrite ring_cols_channels, E in K. destruct K.
Qed.

(* dividing the absorption of a ring by its number of channels restores the balance *)
Lemma summary_balance mat A_mat ncols g ci :
  (length mat <= length (g_av g))%nat -> (ncols <= length (g_av g))%nat ->
  (forall row, In row mat \/ In row A_mat -> length row = ncols) ->
  (forall k, (k < ncols)%nat -> col_total mat k + col_total A_mat k = 1) ->
  (ci < length (rings_of (in_part true ncols g)))%nat ->
  col_total (theta_summary_grid true mat ncols g) ci +
  col_total (theta_summary_A_grid A_mat ncols g) ci /
    INR (length (channels_of_ring (in_part true ncols g) (nth ci (rings_of (in_part true ncols g)) 0%nat))) = 1.
Proof.
  intros Hm Hn Hr Hb Hci.
  assert (Hl : length (in_part true ncols g) = ncols) by (rewrite in_part_front, firstn_length; lia).
  rewrite theta_summary_grid_columns by (auto; intros; apply Hr; auto).
  rewrite theta_summary_A_columns by (auto; intros; apply Hr; auto).
  pose proof (channels_nonempty _ _ Hci) as Hne.
  assert (Hbd : forall k, In k (channels_of_ring (in_part true ncols g)
     (nth ci (rings_of (in_part true ncols g)) 0%nat)) -> (k < ncols)%nat)
    by (intros k Hk; apply channels_bound in Hk; lia).
  set (ch := channels_of_ring _ _) in *. unfold average. rewrite map_length.
  assert (Hp : INR (length ch) <> 0) by (apply not_0_INR; destruct ch; [congruence|simpl; lia]).
  replace (_ + _) with ((rsum (map (col_total mat) ch) + rsum (map (col_total A_mat) ch)) / INR (length ch))
    by (field; auto).
  rewrite <- rsum_map_plus.
  rewrite (rsum_map_ext _ (fun _ => 1)) by (intros; apply Hb; auto).
  rewrite rsum_map_const. field. auto.
Qed.

(* when the two summaries do add up to 1 *)
Lemma summary_balance_iff mat A_mat ncols g ci :
  (length mat <= length (g_av g))%nat -> (ncols <= length (g_av g))%nat ->
  (forall row, In row mat \/ In row A_mat -> length row = ncols) ->
  (forall k, (k < ncols)%nat -> col_total mat k + col_total A_mat k = 1) ->
  (ci < length (rings_of (in_part true ncols g)))%nat ->
  let ch := channels_of_ring (in_part true ncols g) (nth ci (rings_of (in_part true ncols g)) 0%nat) in
  col_total (theta_summary_grid true mat ncols g) ci +
  col_total (theta_summary_A_grid A_mat ncols g) ci = 1 <->
  length ch = 1%nat \/ rsum (map (col_total A_mat) ch) = 0.
Proof.
  intros Hm Hn Hr Hb Hci ch.
  pose proof (summary_balance mat A_mat ncols g ci Hm Hn Hr Hb Hci) as B. fold ch in B.
  rewrite theta_summary_A_columns in * by (auto; intros; apply Hr; auto). fold ch in B |- *.
  pose proof (channels_nonempty _ _ Hci) as Hne. fold ch in Hne.
  set (a := rsum (map (col_total A_mat) ch)) in *.
  set (t := col_total (theta_summary_grid true mat ncols g) ci) in *.
  assert (Hp : 1 <= INR (length ch)) by (replace 1 with (INR 1) by reflexivity; apply le_INR; destruct ch; [congruence|simpl; lia]).
  assert (Ea : a = a / INR (length ch) * INR (length ch)) by (field; lra).
  split.
  - intros E. assert (K : (INR (length ch) - 1) * (a / INR (length ch)) = 0) by nra.
    apply Rmult_integral in K. destruct K as [K|K].
    + left. apply INR_eq. simpl. lra.
    + right. rewrite Ea, K. lra.
  - intros [E|E].
    + rewrite E in B. simpl in B. lra.
    + rewrite E in B |- *. unfold Rdiv in B. lra.
Qed.
