(* The path of a ray through the stack: model of single_ray_stack against Spec_RayStack. *)
From Coq Require Import Reals List Bool ZArith Lra Lia.
From Verif Require Import Base Lib Proof_RAT Model_RayIface Model_RayStack Spec_RayIface Spec_RayStack.
Import ListNotations.
Open Scope R_scope.

Lemma padded_length ws : length (padded ws) = S (S (length ws)).
Proof. unfold padded. cbn [length]. rewrite app_length. simpl. lia. Qed.

Section Run.
Variables (K : stack) (ws : list R) (m0 d0 : Z) (outs : nat -> outcome).
Hypothesis HK : stack_of K ws.
Hypothesis HS : good_start ws m0 d0.

Notation n := (Z.of_nat (length ws)).
Notation hd := (heading d0 outs).
Notation md := (medium m0 d0 outs).
Notation sf := (ahead m0 d0 outs).
Notation pw := (power m0 d0 outs K).

Definition loc (k : nat) : Prop :=
  (hd k = 1 /\ 0 <= md k <= n)%Z \/ (hd k = -1 /\ 1 <= md k <= n + 1)%Z.

Record inv (k : nat) (st : sstate) : Prop := {
  iv_loc : loc k;
  iv_dir : s_dir st = hd k; iv_mat : s_mat st = md k; iv_surf : s_surf st = sf k;
  iv_I : s_I st = pw k; iv_pass : s_passes st = k; iv_Aint : s_Aint st = []; iv_idx : s_Aidx st = 0%Z;
  iv_len : length (s_A st) = length (k_widths K);
  iv_A : forall i, (i < length (k_widths K))%nat -> nth i (s_A st) 0 = lost_in m0 d0 outs K i k;
  iv_prof : length (s_profile st) = length (k_zpos K);
  iv_bulk : (1 <= k)%nat -> (1 <= md k <= n)%Z }.

Lemma widths_len : length (k_widths K) = S (S (length ws)).
Proof. rewrite (so_widths _ _ HK). apply padded_length. Qed.
Lemma alphas_len : length (k_alphas K) = S (S (length ws)).
Proof. rewrite (so_alphas _ _ HK). apply widths_len. Qed.

Lemma power_0 : pw 0 = 1.
Proof. unfold power. simpl. rewrite Ropp_0. apply exp_0. Qed.
Lemma power_S k : pw (S k) = pw k * exp (- crossing m0 d0 outs K k).
Proof.
  unfold power. rewrite seq_S, map_app, rsum_app. cbn [map rsum Nat.add].
  rewrite <- exp_plus. f_equal. lra.
Qed.
Lemma power_pos k : 0 < pw k.
Proof. apply exp_pos. Qed.
Lemma lost_S i k : lost_in m0 d0 outs K i (S k) =
  lost_in m0 d0 outs K i k + (if Z.eqb (md (S k)) (Z.of_nat i) then pw k - pw (S k) else 0).
Proof. unfold lost_in. rewrite seq_S, map_app, rsum_app. cbn [map rsum Nat.add]. lra. Qed.

Lemma inv_0 : inv 0 (sstart K m0 d0).
Proof.
  constructor; cbn [s_dir s_mat s_surf s_I s_passes s_Aint s_Aidx s_A s_profile sstart]; auto.
  - symmetry; apply power_0.
  - apply repeat_length.
  - intros i Hi. rewrite nth_repeat_any by auto. reflexivity.
  - apply repeat_length.
  - lia.
Qed.

(* the crossing that follows outcome k at angle th *)
Definition cross_state (st : sstate) (dir mat surf : Z) (th : R) : sstate :=
  let m := Z.to_nat mat in
  let t := traverse (nth m (k_widths K) 0) th (nth m (k_alphas K) 0) (s_I st)
             (depths_of (k_widths K) (k_zpos K) m) (k_thresh K) dir in
  {| s_dir := dir; s_mat := mat; s_surf := surf; s_I := tr_I t; s_theta := tr_theta t;
     s_profile := add_masked (depth_mask (k_widths K) (k_zpos K) m) (s_profile st) (tr_DA t);
     s_A := set_A (s_A st) m (nth m (s_A st) 0 + s_I st - tr_I t);
     s_passes := S (s_passes st); s_Aint := s_Aint st; s_Aidx := s_Aidx st |}.

Definition moved (st : sstate) (dir mat surf : Z) (th : R) : sstate :=
  {| s_dir := dir; s_mat := mat; s_surf := surf; s_I := s_I st; s_theta := Some th;
     s_profile := s_profile st; s_A := s_A st; s_passes := s_passes st;
     s_Aint := s_Aint st; s_Aidx := s_Aidx st |}.

Definition absorbed (st : sstate) (A : list R) : sstate :=
  {| s_dir := s_dir st; s_mat := s_mat st; s_surf := s_surf st; s_I := 0; s_theta := None;
     s_profile := s_profile st; s_A := s_A st; s_passes := s_passes st;
     s_Aint := map (fun a => s_I st * a / rsum A) A; s_Aidx := (s_surf st + 1)%Z |}.

Definition outside (k : nat) : bool :=
  (Z.eqb (hd k) 1 && Z.eqb (md k) (n + 1)) || (Z.eqb (hd k) (-1) && Z.eqb (md k) 0).

Lemma loc_next k : loc k -> (forall A, outs k <> OAbsorbed A) ->
  outside (S k) = false -> loc (S k) /\ (1 <= md (S k) <= n)%Z.
Proof.
  unfold loc, outside. cbn [heading medium]. intros H Ha Ho.
  apply orb_false_iff in Ho. destruct Ho as [Ho1 Ho2].
  destruct (outs k) as [th|th|A]; [| |exfalso; eapply Ha; eauto];
    destruct H as [[E H]|[E H]]; rewrite E in *; cbn in Ho1, Ho2;
    try apply Z.eqb_neq in Ho1; try apply Z.eqb_neq in Ho2; lia.
Qed.

Lemma sstep_eq k st : inv k st ->
  sstep K st (outs k) =
  match outs k with
  | OAbsorbed A => Ok (inr (absorbed st A))
  | _ =>
      if outside (S k) then Ok (inr (moved st (hd (S k)) (md (S k)) (sf (S k)) (angle outs k)))
      else let st' := cross_state st (hd (S k)) (md (S k)) (sf (S k)) (angle outs k) in
           if Rltb (s_I st') (k_thresh K) then Ok (inr st') else Ok (inl st')
  end.
Proof.
  intros H. pose proof (iv_loc _ _ H) as HL.
  assert (Hs : py_pos (k_surfaces K) (s_surf st) = Ok (Z.to_nat (s_surf st))).
  { apply py_pos_ok. rewrite (iv_surf _ _ H), (so_surf _ _ HK). unfold ahead.
    destruct HL as [[E L]|[E L]]; rewrite E; cbn [Z.eqb Pos.eqb]; lia. }
  assert (Hm : py_pos (length (k_alphas K)) (s_mat st) = Ok (Z.to_nat (s_mat st))).
  { apply py_pos_ok. rewrite (iv_mat _ _ H), alphas_len.
    destruct HL as [[E L]|[E L]]; lia. }
  assert (Hm2 : exists p, py_pos (length (k_alphas K))
     (if Z.eqb (s_dir st) 1 then s_mat st + 1 else s_mat st - 1)%Z = Ok p).
  { eexists. apply py_pos_ok. rewrite (iv_mat _ _ H), (iv_dir _ _ H), alphas_len.
    destruct HL as [[E L]|[E L]]; rewrite E; cbn [Z.eqb Pos.eqb]; lia. }
  destruct Hm2 as [p Hm2].
  unfold sstep. rewrite Hs. cbn [rbind]. rewrite Hm. cbn [rbind]. rewrite Hm2. cbn [rbind].
  assert (Hgo : forall (dir mat surf : Z) th,
    dir = hd (S k) -> mat = md (S k) -> surf = sf (S k) -> th = angle outs k ->
    (forall A, outs k <> OAbsorbed A) ->
    (if (dir =? 1)%Z && (mat =? Z.of_nat (length (k_widths K)) - 1)%Z || (dir =? -1)%Z && (mat =? 0)%Z
     then Ok (inr (moved st dir mat surf th))
     else rbind (py_pos (length (k_widths K)) mat) (fun m =>
          rbind (py_index (k_alphas K) mat) (fun alpha =>
          let t := traverse (nth m (k_widths K) 0) th alpha (s_I st)
                 (depths_of (k_widths K) (k_zpos K) m) (k_thresh K) dir in
          let st' := {| s_dir := dir; s_mat := mat; s_surf := surf; s_I := tr_I t;
                    s_theta := tr_theta t;
                    s_profile := add_masked (depth_mask (k_widths K) (k_zpos K) m)
                                            (s_profile st) (tr_DA t);
                    s_A := set_A (s_A st) m (nth m (s_A st) 0 + s_I st - tr_I t);
                    s_passes := S (s_passes st);
                    s_Aint := s_Aint st; s_Aidx := s_Aidx st |} in
          if tr_stop t then Ok (inr st') else Ok (inl st')))) =
    (if outside (S k) then Ok (inr (moved st (hd (S k)) (md (S k)) (sf (S k)) (angle outs k)))
     else let st' := cross_state st (hd (S k)) (md (S k)) (sf (S k)) (angle outs k) in
           if Rltb (s_I st') (k_thresh K) then Ok (inr st') else Ok (inl st'))).
  { intros dir mat surf th -> -> -> -> Ha.
    replace (Z.of_nat (length (k_widths K)) - 1)%Z with (n + 1)%Z by (rewrite widths_len; lia).
    fold (outside (S k)). destruct (outside (S k)) eqn:Eo; auto.
    destruct (loc_next k HL Ha Eo) as [_ L].
    rewrite py_pos_ok by (rewrite widths_len; lia). cbn [rbind].
    rewrite (py_index_ok _ _ 0) by (rewrite alphas_len; lia). cbn [rbind]. reflexivity. }
  assert (Hd := iv_dir _ _ H). assert (Hmm := iv_mat _ _ H). assert (Hsf := iv_surf _ _ H).
  destruct (outs k) as [th|th|A] eqn:Eo.
  - apply Hgo; try (unfold angle; cbn [heading medium]; rewrite ?Eo; congruence).
    rewrite Hsf, Hd. unfold ahead. cbn [heading medium]. rewrite Eo.
      destruct HL as [[E L]|[E L]]; rewrite E; cbn [Z.eqb Pos.eqb Z.opp]; lia.
  - apply Hgo; try (unfold angle; cbn [heading medium]; rewrite ?Eo; congruence).
    rewrite Hsf, Hd. unfold ahead. cbn [heading medium]. rewrite Eo.
      destruct HL as [[E L]|[E L]]; rewrite E; cbn [Z.eqb Pos.eqb Z.opp]; lia.
  - reflexivity.
Qed.

Lemma cross_I k st : inv k st ->
  s_I (cross_state st (hd (S k)) (md (S k)) (sf (S k)) (angle outs k)) = pw (S k).
Proof.
  intros H. cbn [cross_state s_I]. unfold traverse. cbn [tr_I].
  rewrite (iv_I _ _ H), power_S. unfold crossing. f_equal. f_equal. unfold Rdiv. ring.
Qed.

Lemma add_masked_length m : forall l v, length (add_masked m l v) = length l.
Proof.
  induction m as [|b m IH]; intros [|x l] v; auto; destruct b; cbn [add_masked]; auto.
  - destruct v; cbn [length]; auto.
  - cbn [length]. auto.
Qed.

Lemma inv_S k st : inv k st -> (forall A, outs k <> OAbsorbed A) -> outside (S k) = false ->
  inv (S k) (cross_state st (hd (S k)) (md (S k)) (sf (S k)) (angle outs k)).
Proof.
  intros H Ha Ho. destruct (loc_next k (iv_loc _ _ H) Ha Ho) as [L B].
  pose proof (cross_I k st H) as HI.
  constructor; auto.
  - cbn [cross_state s_passes]. now rewrite (iv_pass _ _ H).
  - cbn [cross_state s_Aint]. apply (iv_Aint _ _ H).
  - cbn [cross_state s_Aidx]. apply (iv_idx _ _ H).
  - cbn [cross_state s_A]. unfold set_A. rewrite set_nth_length. apply (iv_len _ _ H).
  - intros i Hi. rewrite lost_S, <- HI, <- (iv_I _ _ H), <- (iv_A _ _ H) by auto.
    cbn [cross_state s_A s_I]. unfold set_A.
    rewrite set_nth_nth by (rewrite (iv_len _ _ H), widths_len; lia).
    destruct (Nat.eqb_spec i (Z.to_nat (md (S k)))) as [->|Ne].
    + replace (md (S k) =? Z.of_nat (Z.to_nat (md (S k))))%Z with true
        by (symmetry; apply Z.eqb_eq; lia).
      lra.
    + replace (md (S k) =? Z.of_nat i)%Z with false by (symmetry; apply Z.eqb_neq; lia).
      lra.
  - cbn [cross_state s_profile]. rewrite add_masked_length. apply (iv_prof _ _ H).
Qed.

Lemma ending_step k st st' : inv k st -> sstep K st (outs k) = Ok (inr st') ->
  ending K ws m0 d0 outs k st' /\ length (s_A st') = length (k_widths K) /\
  length (s_profile st') = length (k_zpos K) /\
  (forall i, (i < length (k_widths K))%nat ->
     nth i (s_A st') 0 = lost_in m0 d0 outs K i (s_passes st')).
Proof.
  intros H. rewrite (sstep_eq k st H). pose proof (iv_loc _ _ H) as HL.
  assert (Hgo : (forall A, outs k <> OAbsorbed A) ->
    (if outside (S k)
     then Ok (inr (moved st (hd (S k)) (md (S k)) (sf (S k)) (angle outs k)))
     else let st' := cross_state st (hd (S k)) (md (S k)) (sf (S k)) (angle outs k) in
          if Rltb (s_I st') (k_thresh K) then Ok (inr st') else Ok (inl st')) = Ok (inr st') ->
    ending K ws m0 d0 outs k st' /\ length (s_A st') = length (k_widths K) /\
    length (s_profile st') = length (k_zpos K) /\
    (forall i, (i < length (k_widths K))%nat ->
       nth i (s_A st') 0 = lost_in m0 d0 outs K i (s_passes st'))).
  { intros Ha E. destruct (outside (S k)) eqn:Eo.
    - inversion E; subst st'. cbn [moved s_A s_profile s_passes].
      split; [|split; [|split]];
        [|apply (iv_len _ _ H)|apply (iv_prof _ _ H)|rewrite (iv_pass _ _ H); apply (iv_A _ _ H)].
      unfold outside in Eo. apply orb_true_iff in Eo.
      destruct Eo as [Eo|Eo]; apply andb_true_iff in Eo; destruct Eo as [E1 E2];
        apply Z.eqb_eq in E1; apply Z.eqb_eq in E2.
      + apply leaves_rear; auto; cbn [moved s_I s_passes s_Aint];
          [apply (iv_I _ _ H)|apply (iv_pass _ _ H)|apply (iv_Aint _ _ H)].
      + apply leaves_front; auto; cbn [moved s_I s_passes s_Aint];
          [apply (iv_I _ _ H)|apply (iv_pass _ _ H)|apply (iv_Aint _ _ H)].
    - pose proof (inv_S k st H Ha Eo) as H'.
      destruct (loc_next k HL Ha Eo) as [_ B].
      set (c := cross_state st (hd (S k)) (md (S k)) (sf (S k)) (angle outs k)) in *.
      cbv zeta in E. destruct (Rltb (s_I c) (k_thresh K)) eqn:Et; [|discriminate].
      injection E as <-. apply Rltb_true in Et.
      split; [|split; [|split]]; [|apply (iv_len _ _ H')|apply (iv_prof _ _ H')|
        rewrite (iv_pass _ _ H'); apply (iv_A _ _ H')].
      apply absorbed_bulk; auto;
        [|apply (iv_I _ _ H')|apply (iv_pass _ _ H')|apply (iv_Aint _ _ H')].
      subst c. cbn [cross_state s_theta]. unfold traverse. cbn [tr_theta].
      replace (Rltb _ _) with true; auto. symmetry. apply Rltb_true.
      cbn [cross_state s_I] in Et. unfold traverse in Et. exact Et. }
  destruct (outs k) as [th|th|A] eqn:Eo.
  - apply Hgo; congruence.
  - apply Hgo; congruence.
  - intros E. inversion E; subst st'. cbn [absorbed s_A s_profile s_passes].
    split; [|split; [|split]];
        [|apply (iv_len _ _ H)|apply (iv_prof _ _ H)|rewrite (iv_pass _ _ H); apply (iv_A _ _ H)].
    apply absorbed_interface with A; auto; cbn [absorbed s_passes s_Aint s_Aidx].
    + apply (iv_pass _ _ H).
    + rewrite (iv_I _ _ H). reflexivity.
    + unfold ahead. destruct HL as [[E1 L]|[E1 L]]; rewrite E1; cbn [Z.eqb Pos.eqb]; lia.
    + rewrite (iv_surf _ _ H). reflexivity.
Qed.

Lemma step_inl k st st' : inv k st -> sstep K st (outs k) = Ok (inl st') ->
  inv (S k) st' /\ k_thresh K <= s_I st' /\ (forall A, outs k <> OAbsorbed A) /\
  outside (S k) = false /\
  st' = cross_state st (hd (S k)) (md (S k)) (sf (S k)) (angle outs k).
Proof.
  intros H. rewrite (sstep_eq k st H). intros E.
  destruct (outs k) as [th|th|A] eqn:Eo; [| |discriminate];
    (destruct (outside (S k)) eqn:Eb; [discriminate|]; cbv zeta in E;
     destruct (Rltb _ _) eqn:Et in E; [discriminate|]; injection E as <-;
     apply Rltb_false in Et;
     assert (Ha : forall A, outs k <> OAbsorbed A) by congruence;
     split; [apply inv_S; auto|split; [exact Et|split; [rewrite <- Eo; exact Ha|split; reflexivity]]]).
Qed.

Lemma step_ok k st : inv k st -> exists r, sstep K st (outs k) = Ok r.
Proof.
  intros H. rewrite (sstep_eq k st H).
  destruct (outs k); try (destruct (outside (S k)); [eexists; reflexivity|]; cbv zeta;
    destruct (Rltb _ _); eexists; reflexivity). eexists; reflexivity.
Qed.

Lemma run_end fuel : forall k st o, inv k st -> srun fuel K st outs k = Some o ->
  exists k' st0 st', o = Ok st' /\ (k <= k' < k + fuel)%nat /\ inv k' st0 /\
    sstep K st0 (outs k') = Ok (inr st') /\
    (forall j, (k < j <= k')%nat -> (1 <= md j <= n)%Z /\ k_thresh K <= power m0 d0 outs K j).
Proof.
  induction fuel as [|f IH]; intros k st o H E; [discriminate|].
  cbn [srun] in E. destruct (step_ok k st H) as [r Hr]. rewrite Hr in E.
  destruct r as [st'|st'].
  - destruct (step_inl k st st' H Hr) as [H' [Ht _]].
    destruct (IH (S k) st' o H' E) as [k' [st0 [st1 [E1 [E2 [E3 [E4 E5]]]]]]].
    exists k', st0, st1. split; [exact E1|]. split; [lia|]. split; [exact E3|]. split; [exact E4|].
    intros j Hj. destruct (Nat.eq_dec j (S k)) as [->|Ne].
    + split; [apply (iv_bulk _ _ H'); lia|]. rewrite <- (iv_I _ _ H'). exact Ht.
    + apply E5. lia.
  - inversion E; subst o. exists k, st, st'. split; [reflexivity|]. split; [lia|].
    split; [exact H|]. split; [exact Hr|]. intros j Hj. lia.
Qed.

Lemma ray_end fuel o : single_ray_stack fuel K m0 d0 outs = Some o ->
  exists k st0 st, o = Ok st /\ (k < fuel)%nat /\ inv k st0 /\
    sstep K st0 (outs k) = Ok (inr st) /\
    (forall j, (1 <= j <= k)%nat -> (1 <= md j <= n)%Z /\ k_thresh K <= power m0 d0 outs K j).
Proof.
  intros E. destruct (run_end fuel 0 _ o inv_0 E) as [k [st0 [st [E1 [E2 [E3 [E4 E5]]]]]]].
  exists k, st0, st. split; [exact E1|]. split; [lia|]. split; [exact E3|]. split; [exact E4|].
  intros j Hj. apply E5. lia.
Qed.

Lemma reach_inv k st : reach K m0 d0 outs k st -> inv k st.
Proof.
  induction 1 as [|k st st' _ IH E]; [apply inv_0|]. apply (step_inl k st st'); auto.
Qed.

(* ---------- C28 ---------- *)

(* the power is at least the threshold until the ray ends *)
Lemma path_end_alive fuel o : single_ray_stack fuel K m0 d0 outs = Some o ->
  exists k st, o = Ok st /\ (k < fuel)%nat /\ ending K ws m0 d0 outs k st /\
    (forall j, (1 <= j <= k)%nat -> (1 <= md j <= n)%Z /\ k_thresh K <= power m0 d0 outs K j) /\
    length (s_A st) = length (k_widths K) /\
    (forall i, (i < length (k_widths K))%nat -> nth i (s_A st) 0 = lost_in m0 d0 outs K i (s_passes st)).
Proof.
  intros E. destruct (ray_end fuel o E) as [k [st0 [st [E1 [E2 [E3 [E4 E5]]]]]]].
  destruct (ending_step k st0 st E3 E4) as [F1 [F2 [F3 F4]]].
  exists k, st. split; [exact E1|]. split; [exact E2|]. split; [exact F1|]. split; [exact E5|].
  split; [exact F2|exact F4].
Qed.

Lemma path_end fuel o : single_ray_stack fuel K m0 d0 outs = Some o ->
  exists k st, o = Ok st /\ (k < fuel)%nat /\ ending K ws m0 d0 outs k st /\
    (forall j, (1 <= j <= k)%nat -> (1 <= md j <= n)%Z) /\
    length (s_A st) = length (k_widths K) /\
    (forall i, (i < length (k_widths K))%nat -> nth i (s_A st) 0 = lost_in m0 d0 outs K i (s_passes st)).
Proof.
  intros E. destruct (path_end_alive fuel o E) as (k & st & E1 & E2 & E3 & E4 & E5).
  exists k, st. split; [exact E1|]. split; [exact E2|]. split; [exact E3|]. split; [|exact E5]. intros j Hj. apply E4. exact Hj.
Qed.

Lemma ending_passes k st : ending K ws m0 d0 outs k st ->
  (forall j, (1 <= j <= k)%nat -> (1 <= md j <= n)%Z) ->
  forall j, (j < s_passes st)%nat -> (1 <= md (S j) <= n)%Z.
Proof.
  intros E B j Hj. inversion E; try (apply B; lia).
  destruct (Nat.eq_dec j k) as [->|Ne]; [assumption|apply B; lia].
Qed.

Lemma lost_outside i p : (forall j, (j < p)%nat -> (1 <= md (S j) <= n)%Z) ->
  i = 0%nat \/ i = S (length ws) -> lost_in m0 d0 outs K i p = 0.
Proof.
  intros B Hi. unfold lost_in. apply rsum_map_0. intros j Hj. apply in_seq in Hj.
  specialize (B j ltac:(lia)). replace (_ =? _)%Z with false; auto.
  symmetry. apply Z.eqb_neq. lia.
Qed.

(* total lost = telescoping *)
Lemma lost_total p : (forall j, (j < p)%nat -> (1 <= md (S j) <= n)%Z) ->
  rsum (map (fun i => lost_in m0 d0 outs K i p) (seq 0 (length (k_widths K)))) = 1 - pw p.
Proof.
  induction p as [|p IH]; intros B.
  - rewrite power_0. rewrite rsum_map_0; [lra|]. reflexivity.
  - rewrite rsum_map_ext with (g := fun i => lost_in m0 d0 outs K i p +
      (if Z.eqb (md (S p)) (Z.of_nat i) then pw p - pw (S p) else 0))
      by (intros; apply lost_S).
    rewrite rsum_map_plus, IH by (intros; apply B; lia).
    specialize (B p ltac:(lia)).
    rewrite rsum_map_single with (i := Z.to_nat (md (S p))).
    + rewrite (proj2 (Z.eqb_eq _ _)) by lia. lra.
    + rewrite widths_len. lia.
    + intros j Hj Ne. rewrite (proj2 (Z.eqb_neq _ _)); auto. lia.
Qed.

Lemma sA_total st p : length (s_A st) = length (k_widths K) ->
  (forall i, (i < length (k_widths K))%nat -> nth i (s_A st) 0 = lost_in m0 d0 outs K i p) ->
  (forall j, (j < p)%nat -> (1 <= md (S j) <= n)%Z) -> rsum (s_A st) = 1 - pw p.
Proof.
  intros L HA B. rewrite <- lost_total by auto.
  rewrite <- (map_nth_seq (s_A st) 0), L. apply rsum_map_ext. intros i Hi.
  apply in_seq in Hi. apply HA. lia.
Qed.
End Run.
