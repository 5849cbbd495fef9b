From Coq Require Import Reals List ZArith Bool Lia Lra Sorting.Sorted.
From Verif Require Import Base Lib Model_TMM Proof_TMM3 Model_Absorb Spec_Absorb Proof_Absorb.
Import ListNotations.
Open Scope R_scope.

(* ---------- passes ---------- *)

Lemma add_rows n (F G : nat -> list R) : add_tables (rows n F) (rows n G) = rows n (fun i => map2 Rplus (F i) (G i)).
Proof. apply map2_rows. Qed.
Lemma map2_same {A} (f g : A -> R) l : map2 Rplus (map f l) (map g l) = map (fun x => f x + g x) l.
Proof. induction l; simpl; congruence. Qed.

Lemma fold_tables n (pts : list R) (gs : list (nat -> R -> R)) : forall h,
  fold_left add_tables (map (fun g => sampled n g pts) gs) (sampled n h pts) =
  sampled n (fun i x => h i x + rsum (map (fun g => g i x) gs)) pts.
Proof.
  induction gs as [|g r IH]; intros h; cbn [map fold_left].
  - apply rows_ext. intros. apply map_ext. intros. cbn [rsum]. lra.
  - rewrite !sampled_rows, add_rows. rewrite (rows_ext n _ (fun i => map (fun x => h i x + g i x) pts)) by (intros; apply map2_same).
    rewrite <- (sampled_rows n (fun i x => h i x + g i x)). rewrite IH. apply rows_ext. intros. apply map_ext. intros.
    cbn [rsum map]. lra.
Qed.
Lemma sum_passes_sampled n pts gs : gs <> [] ->
  sum_passes (map (fun g => sampled n g pts) gs) = Some (sampled n (fun i x => rsum (map (fun g : nat -> R -> R => g i x) gs)) pts).
Proof.
  intros H. destruct gs as [|g r]; [congruence|]. unfold sum_passes. cbn [map]. rewrite fold_tables. f_equal.
Qed.
Lemma clip_max x : clip x = Rmax 0 x.
Proof. unfold clip. unfold Rmax. destruct (Rltb x 0) eqn:E; destruct Rle_dec; auto; [apply Rltb_true in E|apply Rltb_false in E]; lra. Qed.
Lemma clip_sampled n pts gs :
  map (map (map clip)) (map (fun g => sampled n g pts) gs) =
  map (fun g => sampled n g pts) (map (fun (g : nat -> R -> R) i x => Rmax 0 (g i x)) gs).
Proof.
  rewrite !map_map. apply map_ext. intros g. unfold sampled. rewrite map_map. apply map_ext. intros i. rewrite map_map.
  apply map_ext. intros. apply clip_max.
Qed.

Lemma collect_two n pf pk gf gk : gf <> [] -> gk <> [] ->
  collect_profiles [map (fun g => sampled n g pf) gf; map (fun g => sampled n g pk) gk] =
  [sampled n (positive_sum gf) pf; sampled n (positive_sum gk) pk].
Proof.
  intros Hf Hk. unfold collect_profiles. rewrite !clip_sampled, !sum_passes_sampled.
  2,3: destruct gf, gk; simpl; congruence.
  unfold positive_sum. f_equal; [|f_equal]; apply rows_ext; intros; apply map_ext; intros; rewrite map_map; auto.
Qed.

Lemma rows_post n f pts : sampled n f pts = rows n (fun i => map (f i) pts ++ (fun _ : nat => []) i).
Proof. apply rows_ext. intros. rewrite app_nil_r. auto. Qed.

Lemma mults_pos d n x : 0 < d -> In x (mults d n) -> 0 <= x.
Proof. intros Hd H. apply in_mults in H. destruct H as (m & _ & ->). apply Rmult_le_pos; [apply pos_INR|lra]. Qed.

Lemma sorted_map_ext (f g : R -> R) l : (forall x, f x = g x) -> StronglySorted Rlt (map f l) -> StronglySorted Rlt (map g l).
Proof. intros H. rewrite (map_ext _ _ H). auto. Qed.

Lemma matrix_spec (o : aopts) (wf wk : list R) (wb : R) (pf pk : option (list nat)) rest (gf gb gk : list (nat -> R -> R))
    (nf nb nk : nat) :
  0 < ao_d o -> 0 < ao_db o -> ao_bulk o = true -> 0 <= rsum wf ->
  valid_layers wf (layers_of pf) -> valid_layers wk (layers_of pk) ->
  n_points (rsum (nm wf)) (ao_d o * 10 ^ 9) (/ 10 ^ 12) nf ->
  n_points (rsum (nm wk)) (ao_d o * 10 ^ 9) (/ 10 ^ 12) nk ->
  n_points (wb * 10 ^ 6) (ao_db o * 10 ^ 6) (/ 10 ^ 12) nb ->
  0 <= wb -> gf <> [] -> gb <> [] -> gk <> [] ->
  exists g,
    absorption_matrix
      (mm_result true
         [map (fun f => sampled (ao_nwl o) f (depths_in (nm wf) (layers_of pf) (mults (ao_d o * 10 ^ 9) nf))) gf;
          map (fun f => sampled (ao_nwl o) f (depths_in (nm wk) (layers_of pk) (mults (ao_d o * 10 ^ 9) nk))) gk]
         [map (fun f => sampled (ao_nwl o) f (mults (ao_db o) nb)) gb])
      (EIface wf (option_map (map Z.of_nat) pf) :: EBulk wb :: EIface wk (option_map (map Z.of_nat) pk) :: rest) o = Ok g /\
    proper (ao_nwl o) g /\
    forall i, (i < ao_nwl o)%nat -> forall x v, node g i x v <->
      (exists m, (m < nf)%nat /\ x = INR m * ao_d o /\
         shown (nm wf) (layers_of pf) (positive_sum gf i) (INR m * (ao_d o * 10 ^ 9)) v) \/
      (exists m, (m < nb)%nat /\ x = rsum wf + INR m * ao_db o /\ v = plain_sum gb i (INR m * ao_db o)) \/
      (exists m, (m < nk)%nat /\ x = rsum wf + wb + INR m * ao_d o /\
         shown (nm wk) (layers_of pk) (positive_sum gk i) (INR m * (ao_d o * 10 ^ 9)) v).
Proof.
  intros Hd Hdb Hbulk Wf Vf Vk Nf Nk Nb Wb Gf Gb Gk.
  assert (P9 : 0 < 10 ^ 9) by (apply pow_lt; lra). assert (P6 : 0 < 10 ^ 6) by (apply pow_lt; lra).
  assert (P12 : 0 < / 10 ^ 12) by (apply Rinv_0_lt_compat, pow_lt; lra).
  unfold mm_result. rewrite collect_two by auto. unfold collect_bulks. cbn [map]. rewrite sum_passes_sampled by auto.
  rewrite !(rows_post _ (positive_sum _)).
  assert (Vf' : valid_layers (nm wf) (layers_of pf)) by (intros k Hk; rewrite nm_length; auto).
  assert (Vk' : valid_layers (nm wk) (layers_of pk)) by (intros k Hk; rewrite nm_length; auto).
  eexists. split; [apply (matrix_ok o wf wk wb pf pk rest (positive_sum gf) (plain_sum gb) (positive_sum gk) nf nb nk nb); auto|].
  assert (Hd9 : 0 < ao_d o * 10 ^ 9) by (apply Rmult_lt_0_compat; auto).
  assert (Hd6 : 0 < ao_db o * 10 ^ 6) by (apply Rmult_lt_0_compat; auto).
  assert (C1 : forall x, x * 10 ^ 9 / 10 ^ 9 = x) by (intros; field; lra).
  assert (C2 : forall x, x * 10 ^ 6 / 10 ^ 6 = x) by (intros; field; lra).
  assert (C3 : forall m, INR m * (ao_d o * 10 ^ 9) / 10 ^ 9 = INR m * ao_d o) by (intros; field; lra).
  assert (Rf : forall m, (m < nf)%nat -> 0 <= INR m * ao_d o < rsum wf).
  { intros m Hm. destruct (points_range _ _ _ _ m Hd9 (Rlt_le _ _ P12) Nf Hm) as [A B]. rewrite nm_sum in B.
    rewrite <- Rmult_assoc in A, B. split; [apply Rmult_le_reg_r with (10 ^ 9)|apply Rmult_lt_reg_r with (10 ^ 9)]; lra. }
  assert (Rb : forall m, (m < nb)%nat -> 0 <= INR m * ao_db o < wb).
  { intros m Hm. destruct (points_range _ _ _ _ m Hd6 (Rlt_le _ _ P12) Nb Hm) as [A B].
    rewrite <- Rmult_assoc in A, B. split; [apply Rmult_le_reg_r with (10 ^ 6)|apply Rmult_lt_reg_r with (10 ^ 6)]; lra. }
  split.
  - apply gen_proper. unfold m_nodes. rewrite !map_app, !map_map. cbn [fst].
    apply sorted_app; [|apply sorted_app|].
    + eapply sorted_map_ext; [|apply (mults_sorted _ _ 0 (/ 10 ^ 9)); auto; apply Rinv_0_lt_compat; auto]. intros; cbv beta. unfold Rdiv. lra.
    + eapply sorted_map_ext; [|apply (mults_sorted _ _ (rsum wf) 1); auto; lra]. intros x; cbv beta. rewrite C2, nm_sum, C1. lra.
    + eapply sorted_map_ext; [|apply (mults_sorted _ _ (rsum wf + wb) (/ 10 ^ 9)); auto; apply Rinv_0_lt_compat; auto].
      intros x; cbv beta. rewrite C2, nm_sum, C1. unfold Rdiv. lra.
    + intros x y Hx Hy. apply in_map_iff in Hx. destruct Hx as (x0 & <- & Hx). apply in_map_iff in Hy. destruct Hy as (y0 & <- & Hy).
      apply in_mults in Hx. destruct Hx as (m & Hm & ->). rewrite !C2, nm_sum, C1. specialize (Rb m Hm).
      apply in_mults in Hy. destruct Hy as (m2 & Hm2 & ->). rewrite C3.
      assert (0 <= INR m2 * ao_d o) by (apply Rmult_le_pos; [apply pos_INR|lra]). lra.
    + intros x y Hx Hy. apply in_map_iff in Hx. destruct Hx as (x0 & <- & Hx).
      apply in_mults in Hx. destruct Hx as (m & Hm & ->). rewrite C3. specialize (Rf m Hm).
      apply in_app_or in Hy. destruct Hy as [Hy|Hy]; apply in_map_iff in Hy; destruct Hy as (y0 & <- & Hy);
        apply in_mults in Hy; destruct Hy as (m2 & Hm2 & ->); rewrite ?C2, nm_sum, C1, ?C3.
      * assert (0 <= INR m2 * ao_db o) by (apply Rmult_le_pos; [apply pos_INR|lra]). lra.
      * assert (0 <= INR m2 * ao_d o) by (apply Rmult_le_pos; [apply pos_INR|lra]). lra.
  - intros i Hi x v. rewrite gen_node by auto. unfold m_nodes. split.
    + intros (nd & H & <- & <-). apply in_app_or in H. destruct H as [H|H]; [|apply in_app_or in H; destruct H as [H|H]];
        apply in_map_iff in H; destruct H as (y & <- & H); apply in_mults in H; destruct H as (m & Hm & ->); cbn [fst snd].
      * left. exists m. split; auto. split; [apply C3|]. apply shown_if; auto.
      * right. left. exists m. split; auto. split; auto. rewrite C2, nm_sum, C1. lra.
      * right. right. exists m. split; auto. split; [|apply shown_if; auto]. rewrite C3, C2, nm_sum, C1. lra.
    + intros [(m & Hm & -> & Hv)|[(m & Hm & -> & ->)|(m & Hm & -> & Hv)]].
      * apply shown_if in Hv; auto. eexists. split; [apply in_or_app; left; apply in_map; apply in_mults; exists m; split; [exact Hm|reflexivity]|].
        cbn [fst snd]. split; [apply C3|]. symmetry. exact Hv.
      * eexists. split; [apply in_or_app; right; apply in_or_app; left; apply in_map; apply in_mults; exists m; split; [exact Hm|reflexivity]|].
        cbn [fst snd]. split; auto. rewrite C2, nm_sum, C1. lra.
      * apply shown_if in Hv; auto. eexists.
        split; [apply in_or_app; right; apply in_or_app; right; apply in_map; apply in_mults; exists m; split; [exact Hm|reflexivity]|].
        cbn [fst snd]. split; [|symmetry; exact Hv]. rewrite C3, C2, nm_sum, C1. lra.
Qed.

(* ---------- what the matrix method cannot show ---------- *)

Lemma collect_short a_prof : (length (filter (fun l : list table => negb (Nat.eqb (length l) 0)) a_prof) < 2)%nat ->
  (length (collect_profiles a_prof) < 2)%nat.
Proof.
  intros H. enough (length (collect_profiles a_prof) = length (filter (fun l : list table => negb (Nat.eqb (length l) 0)) a_prof)) by lia.
  clear. induction a_prof as [|item r IH]; auto. cbn [collect_profiles filter]. destruct item as [|t u]; cbn [map sum_passes length Nat.eqb negb]; auto.
Qed.

Lemma matrix_needs_both r A_prof structure o a_prof :
  (length (filter (fun l : list table => negb (Nat.eqb (length l) 0)) a_prof) < 2)%nat -> A_prof <> [] ->
  absorption_matrix (mm_result r a_prof A_prof) structure o = Err IndexError.
Proof.
  intros H HA. apply collect_short in H. unfold mm_result, absorption_matrix. destruct r; auto.
  destruct (collect_profiles a_prof) as [|t [|u l]]; cbn [length] in H; [reflexivity| |lia].
  destruct A_prof; [congruence|]. reflexivity.
Qed.

Lemma matrix_needs_bulk result structure o g : ao_bulk o = false -> absorption_matrix result structure o <> Ok g.
Proof.
  intros Hb H. unfold absorption_matrix in H. destruct result as [[p b]|]; [|discriminate]. rewrite Hb in H.
  repeat match type of H with rbind ?x _ = _ => destruct x; cbn [rbind] in H; try discriminate end.
Qed.
