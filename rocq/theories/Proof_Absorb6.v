From Coq Require Import Reals List ZArith Bool Lia Lra Sorting.Sorted.
From Verif Require Import Base Lib Model_TMM Proof_TMM3 Model_Absorb Model_RTProfile Spec_Absorb Spec_RTProfile Proof_Absorb Proof_Absorb2
  Proof_Absorb3 Proof_Absorb4 Proof_Absorb5 Proof_RTProfile.
Import ListNotations.
Open Scope R_scope.

Lemma multiples_wide d ws : multiples d ws -> exists cs, ws = wide d cs.
Proof.
  induction ws as [|w ws IH]; intros H; [exists []; auto|]. destruct IH as [cs ->]; [intros x Hx; apply H; right; auto|].
  destruct (H w (or_introl eq_refl)) as [c ->]. exists (c :: cs). reflexivity.
Qed.
Lemma sampled_starts n f pts : starts_sampled n f pts (sampled n f pts).
Proof. exists (fun _ => []). apply (rows_post n f pts). Qed.

Lemma rt_ray_spec (o : aopts) (surfs : list surf) (widths : list R) (ifaces : list (option table)) (fi : nat -> nat -> R -> R)
    (fb : nat -> R -> R) (ni np : nat -> nat) :
  0 < ao_d o -> 0 < ao_db o -> length surfs = S (length widths) -> bulk_grid widths (ao_db o) np ->
  existsb is_tmm (map to_surface surfs) = true ->
  (forall i ws p, nth_error surfs i = Some (Some ws, p) ->
     multiples (ao_d o * 10 ^ 9) ws /\ n_points (rsum ws) (ao_d o * 10 ^ 9) 0 (ni i) /\
     forall l, p = Some l -> ascending l /\ valid_layers ws l /\
       nth_error ifaces i = Some (Some (sampled (ao_nwl o) (fi i) (sample_depths ws (ao_d o * 10 ^ 9) l)))) ->
  let st := mk_rt (map to_surface surfs) widths in
  exists g, absorption_rt (mk_rtres (sampled (ao_nwl o) fb (mults (ao_db o) (np (length widths)))) ifaces) st o = Ok g /\
    proper (ao_nwl o) g /\
    forall w, (w < ao_nwl o)%nat -> forall x v, node g w x v <->
      (exists i ws p m, nth_error surfs i = Some (Some ws, p) /\ (m < ni i)%nat /\ x = depth_of st i + INR m * ao_d o /\
         shown ws (layers_of p) (fi i w) (INR m * (ao_d o * 10 ^ 9)) v) \/
      (exists i m, (i < length widths)%nat /\ (np i <= m < np (S i))%nat /\ x = bulk_top st i + INR (m - np i) * ao_db o /\
         v = 10 ^ 9 * fb w (INR m * ao_db o)).
Proof.
  intros Hd Hdb Hl Hg Ht Hs st.
  assert (Hd9 : 0 < ao_d o * 10 ^ 9) by (apply Rmult_lt_0_compat; [auto|apply pow_lt; lra]).
  destruct (rt_spec o surfs widths ifaces fi fb ni np Hd Hdb Hl Hg Ht) as (g & G1 & G2 & _ & G3); [|exists g; auto].
  intros i ws p Hi. destruct (Hs i ws p Hi) as (M & N & L). destruct (multiples_wide _ _ M) as [cs Ecs]. split; [|split; auto].
  - rewrite Ecs, wide_sum. apply Rmult_le_pos; [apply pos_INR|lra].
  - intros l Ep. destruct (L l Ep) as (A & V & E). split; auto. eexists. split; [exact E|].
    rewrite Ecs in *. rewrite (grids_agree cs _ l (ni i)) by (auto; destruct N as [N _]; rewrite wide_sum in N; apply INR_le; apply Rmult_le_reg_r with (ao_d o * 10 ^ 9); auto).
    apply sampled_starts.
Qed.

(* ---------- refutations ---------- *)

Definition one_nm (n : nat) : aopts := mk_aopts n (/ 10 ^ 9) 1 true.
Lemma one_nm_d n : ao_d (one_nm n) * 10 ^ 9 = 1.
Proof. unfold one_nm. cbn [ao_d]. field. Qed.
Lemma no_bulk d : bulk_grid [] d (fun _ => 0%nat).
Proof. split; intros i Hi; cbn [length] in Hi; [|lia]. replace i with 0%nat by lia. split; [simpl; lra|left; auto]. Qed.

Ltac rdec := repeat first
  [ rewrite (proj2 (Rleb_true _ _)) by lra | rewrite (proj2 (Rleb_false _ _)) by lra
  | rewrite (proj2 (Rltb_true _ _)) by lra | rewrite (proj2 (Rltb_false _ _)) by lra
  | progress cbn [andb] ].

Lemma mults2 : mults 1 2 = [0; 1].
Proof. unfold mults. cbn. repeat f_equal; lra. Qed.
Lemma mults3 : mults 1 3 = [0; 1; 2].
Proof. unfold mults. cbn. repeat f_equal; lra. Qed.
Lemma mults1 : mults 1 1 = [0].
Proof. unfold mults. cbn. repeat f_equal; lra. Qed.
Lemma cons2 (a b a' b' : R) : a = a' -> b = b' -> [a; b] = [a'; b'].
Proof. intros -> ->. auto. Qed.

Lemma cons3 (a b c a' b' c' : R) : a = a' -> b = b' -> c = c' -> [a; b; c] = [a'; b'; c'].
Proof. intros -> -> ->. auto. Qed.

Lemma arange_n W n : n_points W 1 0 n -> arange0 W 1 = mults 1 n.
Proof. intros H. rewrite <- (arange_mults W 1 0 0 n) by (auto; lra). f_equal. lra. Qed.

Lemma order_depths : sample_depths [1; 1] 1 [2%nat; 1%nat] = [0; 1].
Proof.
  unfold sample_depths, z_layer, z_offset. cbn -[arange0 Rplus]. rewrite (arange_n 1 1) by (split; [simpl; lra|right; simpl; lra]). rewrite mults1.
  cbn. apply cons2; lra.
Qed.

Lemma order_refuted : exists (o : aopts) (ws : list R) (l : list nat) (f : nat -> R -> R) (g : generation) (x v : R),
  0 < ao_d o /\ 0 < ao_db o /\ multiples (ao_d o * 10 ^ 9) ws /\ valid_layers ws l /\ NoDup l /\
  absorption_rt (mk_rtres [[]] [Some (sampled 1 f (sample_depths ws (ao_d o * 10 ^ 9) l))]) (mk_rt [to_surface (Some ws, Some l)] []) o = Ok g /\
  node g 0 x v /\ ~ shown ws l (f 0%nat) (x * 10 ^ 9) v.
Proof.
  set (f := fun (_ : nat) (x : R) => x).
  destruct (rt_spec (one_nm 1) [(Some [1; 1], Some [2%nat; 1%nat])] [] [Some (sampled 1 f [0; 1])] (fun _ _ x => 1 - x) (fun _ _ => 0) (fun _ => 2%nat) (fun _ => 0%nat))
    as (g & G1 & _ & _ & G2); auto.
  - cbn. apply Rinv_0_lt_compat. lra.
  - cbn. lra.
  - apply no_bulk.
  - intros [|[|i]] ws p E; try discriminate. injection E as <- <-. rewrite one_nm_d. cbn [rsum]. split; [lra|]. split.
    { split; [simpl; lra|]. right. simpl. lra. }
    intros l E. injection E as <-. split; [intros k [<-|[<-|[]]]; cbn; lia|]. eexists. split; [reflexivity|].
    exists (fun _ => []). rewrite depths_in_eq, mults2. unfold inb, inside. cbn -[Rleb Rltb Rplus]. rdec. cbn. f_equal. apply cons2; unfold f; lra.
  - exists (one_nm 1), [1; 1], [2%nat; 1%nat], f, g, 0, (10 ^ 9). rewrite one_nm_d, order_depths. split; [cbn; apply Rinv_0_lt_compat; lra|].
    split; [cbn; lra|]. split; [intros w [<-|[<-|[]]]; exists 1%nat; simpl; lra|]. split; [intros k [<-|[<-|[]]]; cbn; lia|].
    split; [constructor; [intros [E|[]]; discriminate|constructor; [intros []|constructor]]|]. split; [exact G1|]. split.
    + apply G2; [cbn; lia|]. left. exists 0%nat, [1; 1], (Some [2%nat; 1%nat]), 0%nat. split; auto. split; [lia|]. rewrite one_nm_d. split.
      * unfold depth_of. cbn. lra.
      * split; [intros _; simpl; lra|]. intros H. destruct H. exists 1%nat. split; [right; left; auto|]. split; [cbn; lia|]. simpl. lra.
    + intros [H _]. assert (E : 10 ^ 9 = 10 ^ 9 * f 0%nat (0 * 10 ^ 9)).
      { apply H. exists 1%nat. split; [right; left; auto|]. split; [cbn; lia|]. simpl. lra. }
      unfold f in E. lra.
Qed.

Lemma grid_depths : sample_depths [7 / 5; 2 / 5; 6 / 5] 1 [2%nat; 3%nat] = [7 / 5; 9 / 5; 14 / 5].
Proof.
  unfold sample_depths, z_layer, z_offset. cbn -[arange0 Rplus]. rewrite (arange_n (2 / 5) 1) by (split; [simpl; lra|right; simpl; lra]).
  rewrite (arange_n (6 / 5) 2) by (split; [simpl; lra|right; simpl; lra]). rewrite mults1, mults2. cbn. apply cons3; lra.
Qed.

Lemma grid_refuted : exists (o : aopts) (ws : list R) (l : list nat) (f : nat -> R -> R) (g : generation) (x z : R) (k : nat),
  0 < ao_d o /\ 0 < ao_db o /\ (forall w, In w ws -> 0 < w) /\ valid_layers ws l /\ ascending l /\
  absorption_rt (mk_rtres [[]] [Some (sampled 1 f (sample_depths ws (ao_d o * 10 ^ 9) l))]) (mk_rt [to_surface (Some ws, Some l)] []) o = Ok g /\
  In k l /\ in_layer ws k (x * 10 ^ 9) /\ ~ in_layer ws k z /\ node g 0 x (10 ^ 9 * f 0%nat z) /\ ~ shown ws l (f 0%nat) (x * 10 ^ 9) (10 ^ 9 * f 0%nat z).
Proof.
  set (f := fun (_ : nat) (x : R) => x). set (ws := [7 / 5; 2 / 5; 6 / 5]). set (l := [2%nat; 3%nat]).
  assert (V : valid_layers ws l) by (intros k [<-|[<-|[]]]; cbn; lia).
  assert (I3 : in_layer ws 3 (2 * / 10 ^ 9 * 10 ^ 9)) by (split; [cbn; lia|]; unfold ws; simpl; lra).
  destruct (rt_spec (one_nm 1) [(Some ws, Some l)] [] [Some (sampled 1 f [7 / 5; 9 / 5; 14 / 5])] (fun _ _ x => 7 / 5) (fun _ _ => 0) (fun _ => 3%nat) (fun _ => 0%nat))
    as (g & G1 & _ & _ & G2); auto.
  - cbn. apply Rinv_0_lt_compat. lra.
  - cbn. lra.
  - apply no_bulk.
  - intros [|[|i]] w p E; try discriminate. injection E as <- <-. rewrite one_nm_d. unfold ws. cbn [rsum]. split; [lra|]. split.
    { split; [simpl; lra|]. right. simpl. lra. }
    intros l' E. injection E as <-. split; auto. eexists. split; [reflexivity|].
    exists (fun _ => [9 / 5; 14 / 5]). rewrite depths_in_eq, mults3. unfold inb, inside, l. cbn -[Rleb Rltb Rplus]. rdec. reflexivity.
  - exists (one_nm 1), ws, l, f, g, (2 * / 10 ^ 9), (7 / 5), 3%nat. rewrite one_nm_d. unfold ws, l. rewrite grid_depths. fold ws l.
    split; [cbn; apply Rinv_0_lt_compat; lra|].
    split; [cbn; lra|]. split; [intros w [<-|[<-|[<-|[]]]]; lra|]. split; auto.
    split; [apply (asc_seq 2 2)|]. split; [exact G1|]. split; [right; left; auto|].
    split; auto. split; [intros [_ H]; unfold ws in H; simpl in H; lra|]. split.
    + apply G2; [cbn; lia|]. left. exists 0%nat, ws, (Some l), 2%nat. split; auto. split; [lia|]. rewrite one_nm_d. split.
      * unfold depth_of. cbn. lra.
      * split; [intros _; unfold f; lra|]. intros H. destruct H. exists 3%nat. split; [right; left; auto|].
        replace (INR 2 * 1) with (2 * / 10 ^ 9 * 10 ^ 9) by (simpl; field). exact I3.
    + intros [H _]. assert (E : 10 ^ 9 * f 0%nat (7 / 5) = 10 ^ 9 * f 0%nat (2 * / 10 ^ 9 * 10 ^ 9)).
      { apply H. exists 3%nat. split; [right; left; auto|]. exact I3. }
      unfold f in E. replace (2 * / 10 ^ 9 * 10 ^ 9) with 2 in E by field. lra.
Qed.

(* bulk layers *)
Lemma bulk_shift (st : rt_object) d np i m : 0 < d -> bulk_grid (rt_widths st) d np -> (i < length (rt_widths st))%nat -> (np i <= m < np (S i))%nat ->
  let shown_at := bulk_top st i + INR (m - np i) * d in
  let true_at := bulk_top st i + (INR m * d - rsum (firstn i (rt_widths st))) in
  0 <= true_at - shown_at < d /\ (true_at = shown_at <-> rsum (firstn i (rt_widths st)) = INR (np i) * d).
Proof.
  intros Hd [G G2] Hi Hm. cbv zeta. destruct (G i ltac:(lia)) as [A B].
  assert (E : INR m = INR (np i) + INR (m - np i)) by (rewrite <- plus_INR; f_equal; lia). rewrite E. split; [|split; intros; lra].
  split; [lra|]. destruct B as [B|B].
  - destruct i as [|i]; [cbn [firstn rsum] in *; rewrite B; simpl; lra|]. specialize (G2 i ltac:(lia)). lia.
  - destruct (np i) as [|k] eqn:En; [simpl in *; lra|]. replace (S k - 1)%nat with k in B by lia. rewrite S_INR. lra.
Qed.

Lemma bulk_refuted : exists (o : aopts) (surfs : list surf) (widths : list R) (np : nat -> nat) (fb : nat -> R -> R) (g : generation) (x v : R),
  0 < ao_d o /\ 0 < ao_db o /\ length surfs = S (length widths) /\ bulk_grid widths (ao_db o) np /\ existsb is_tmm (map to_surface surfs) = true /\
  absorption_rt (mk_rtres (sampled 1 fb (mults (ao_db o) (np (length widths)))) [None; None; None]) (mk_rt (map to_surface surfs) widths) o = Ok g /\
  node g 0 x v /\ rsum (firstn 1 widths) <= x < rsum widths /\ bulk_top (mk_rt (map to_surface surfs) widths) 1 = rsum (firstn 1 widths) /\ v <> 10 ^ 9 * fb 0%nat x.
Proof.
  set (np := fun i => match i with 0 => 0 | 1 => 2 | _ => 3 end%nat).
  set (surfs := [(None, None); (None, None); (Some [1], None)] : list surf).
  assert (G : bulk_grid [3 / 2; 3 / 2] 1 np).
  { split; intros i Hi; cbn [length] in Hi.
    - destruct i as [|[|[|i]]]; [| | |lia]; (split; [simpl; lra|]); try (left; reflexivity); right; simpl; lra.
    - destruct i as [|[|i]]; [| |lia]; cbn; lia. }
  destruct (rt_spec (one_nm 1) surfs [3 / 2; 3 / 2] [None; None; None] (fun _ _ _ => 0) (fun _ x => x) (fun _ => 1%nat) np)
    as (g & G1 & _ & _ & G2); auto.
  - cbn. apply Rinv_0_lt_compat. lra.
  - cbn. lra.
  - intros [|[|[|[|i]]]] ws p E; try discriminate. injection E as <- <-. rewrite one_nm_d. cbn [rsum]. split; [lra|]. split; [|discriminate].
    split; [simpl; lra|]. right. simpl. lra.
  - exists (one_nm 1), surfs, [3 / 2; 3 / 2], np, (fun _ x => x), g, (3 / 2), (10 ^ 9 * 2).
    split; [cbn; apply Rinv_0_lt_compat; lra|]. split; [cbn; lra|]. split; auto. split; [exact G|]. split; [reflexivity|]. split; [exact G1|]. split.
    + apply G2; [cbn; lia|]. right. exists 1%nat, 2%nat. split; [cbn; lia|]. split; [cbn; lia|]. split; [unfold bulk_top; cbn; lra|simpl; lra].
    + split; [simpl; lra|]. split; [unfold bulk_top; cbn; lra|]. lra.
Qed.

Lemma thin_bulk_refuted : exists (o : aopts) (surfs : list surf) (widths : list R) (res : rt_result),
  0 < ao_d o /\ 0 < ao_db o /\ length surfs = S (length widths) /\ (forall w, In w widths -> 0 < w) /\
  existsb is_tmm (map to_surface surfs) = true /\ (forall s, In s surfs -> snd s = None) /\
  absorption_rt res (mk_rt (map to_surface surfs) widths) o = Err ValueError.
Proof.
  exists (one_nm 1), [(Some [1], None); (None, None); (None, None)], [3 / 2; 1 / 4], (mk_rtres (sampled 1 (fun _ x => x) (mults 1 2)) [None; None; None]).
  split; [cbn; apply Rinv_0_lt_compat; lra|]. split; [cbn; lra|]. split; auto. split; [intros w [<-|[<-|[]]]; lra|]. split; auto.
  split; [intros s [<-|[<-|[<-|[]]]]; auto|].
  unfold absorption_rt. cbn [rt_widths rt_surfaces map length].
  assert (B : map (fun x => x / 10 ^ 6) (arange0 (rsum [3 / 2; 1 / 4] * 10 ^ 6) (ao_db (one_nm 1) * 10 ^ 6)) = [0; 1]).
  { replace (rsum [3 / 2; 1 / 4] * 10 ^ 6) with (rsum [3 / 2; 1 / 4] * 10 ^ 6 - 0) by lra. rewrite (arange_mults _ _ 0 0 2).
    - unfold mults. cbn. apply cons2; field.
    - cbn. lra.
    - lra.
    - apply points_scale; [apply pow_lt; lra|]. cbn. split; [simpl; lra|]. right. simpl. lra. }
  rewrite B. clear B. cbn [rt_pieces to_surface sf_layers sf_prof fst snd option_map].
  set (res := mk_rtres _ _).
  assert (E0 : exists q, rt_surface (one_nm 1) res 0 [1] None 0 = Ok q) by (eexists; reflexivity). destruct E0 as [q E0]. rewrite E0. cbn [rbind fst snd].
  cbn [Nat.ltb Nat.leb Nat.sub].
  assert (E1 : forall off cum, rt_bulk [3 / 2; 1 / 4] [0; 1] res 1 off cum = Err ValueError).
  { intros. apply (bulk_empty _ _ _ _ _ _ (3 / 2) (3 / 2 + 1 / 4)).
    - cbn. f_equal. lra.
    - cbn. f_equal. lra.
    - intros x [<-|[<-|[]]]; lra. }
  assert (E2 : forall cum, exists b, rt_bulk [3 / 2; 1 / 4] [0; 1] res 0 0 cum = Ok b).
  { intros cum. unfold rt_bulk. change (py_index (0 :: cumsum [3 / 2; 1 / 4]) (Z.of_nat 0)) with (@Ok R 0).
    change (py_index (cumsum [3 / 2; 1 / 4]) (Z.of_nat 0)) with (@Ok R (0 + 3 / 2)). cbn [rbind filter]. unfold inside. rdec. cbn [np_min rbind]. eauto. }
  match goal with |- context [rt_bulk _ _ _ 0 0 ?c] => destruct (E2 c) as [b E3] end. rewrite E3. cbn [rbind].
  change (py_index [3 / 2; 1 / 4] (Z.of_nat 0)) with (@Ok R (3 / 2)). cbn [rbind]. rewrite E1. reflexivity.
Qed.

(* ---------- one grid ---------- *)

Lemma fresh_object {M} (st : ostack M) n d (f : nat -> R -> R) N :
  0 < d -> (forall w, In w (widths_of st) -> 0 <= w) -> n_points (rsum (widths_of st)) (d * 10 ^ 9) 0 N ->
  exists pts g, profile_depths (widths_of st) (d * 10 ^ 9) (all_layers (length (widths_of st))) = Ok pts /\
    absorption_plain (sampled n f pts) (ob_width (new_tobj st)) d = Ok g /\ proper n g /\
    forall i, (i < n)%nat -> forall x v, node g i x v <-> exists m, (m < N)%nat /\ x = INR m * d /\ v = 10 ^ 9 * f i (INR m * (d * 10 ^ 9)).
Proof.
  intros Hd Hw HN. assert (Hd9 : 0 < d * 10 ^ 9) by (apply Rmult_lt_0_compat; [auto|apply pow_lt; lra]).
  destruct (plain_spec n f (rsum (widths_of st)) d N Hd HN) as (g & G1 & G2 & G3). exists (mults (d * 10 ^ 9) N), g. split; auto.
  rewrite all_depths by auto. f_equal. rewrite <- (arange_mults (rsum (widths_of st)) (d * 10 ^ 9) 0 0 N Hd9 ltac:(lra) HN). f_equal. lra.
Qed.

Lemma one_d : / 10 ^ 9 * 10 ^ 9 = 1. Proof. field. Qed.
Lemma tiny W n : n_points W 1 0 n -> n_points (W / 10 ^ 9) (/ 10 ^ 9) 0 n.
Proof. intros H. replace (/ 10 ^ 9) with (1 * / 10 ^ 9) at 1 by lra. apply points_scale; auto. apply Rinv_0_lt_compat, pow_lt. lra. Qed.

Lemma stale_width : exists (st : ostack unit) (ws pts : list R) (d : R) (f : nat -> R -> R),
  0 < d /\ (forall w, In w ws -> 0 < w) /\ length ws = length (o_layers st) /\
  profile_depths (widths_of (ob_stack (set_widths (new_tobj st) ws))) (d * 10 ^ 9) (all_layers (length ws)) = Ok pts /\
  absorption_plain (sampled 1 f pts) (ob_width (set_widths (new_tobj st) ws)) d = Err ValueError.
Proof.
  exists (mk_stack tt [(tt, 1)] tt), [2], [0; 1], (/ 10 ^ 9), (fun _ x => x). rewrite one_d.
  split; [apply Rinv_0_lt_compat, pow_lt; lra|]. split; [intros w [<-|[]]; lra|]. split; auto. split.
  - cbn [set_widths ob_stack new_tobj stack_set_widths o_layers map2 widths_of map fst snd length]. rewrite (tmm_layout [2] 1 2); [|lra| |].
    + rewrite depths_in_eq, mults2. unfold inb, inside. cbn -[Rleb Rltb Rplus]. rdec. reflexivity.
    + split; [simpl; lra|]. right. simpl. lra.
    + intros k [<-|[]]; cbn; lia.
  - apply (plain_mismatch _ _ _ [0; 1] 1); [apply Rinv_0_lt_compat, pow_lt; lra| |left; reflexivity|discriminate].
    apply tiny. cbn. split; [simpl; lra|]. right. simpl. lra.
Qed.

Lemma some_layers : exists (st : ostack unit) (layers : list nat) (pts : list R) (d : R) (f : nat -> R -> R),
  0 < d /\ (forall w, In w (widths_of st) -> 0 < w) /\ valid_layers (widths_of st) layers /\
  profile_depths (widths_of st) (d * 10 ^ 9) layers = Ok pts /\
  absorption_plain (sampled 1 f pts) (ob_width (new_tobj st)) d = Err ValueError.
Proof.
  exists (mk_stack tt [(tt, 1); (tt, 1)] tt), [1%nat], [0], (/ 10 ^ 9), (fun _ x => x). rewrite one_d.
  split; [apply Rinv_0_lt_compat, pow_lt; lra|]. split; [intros w [<-|[<-|[]]]; cbn; lra|]. split; [intros k [<-|[]]; cbn; lia|]. split.
  - cbn [o_layers widths_of map snd]. rewrite (tmm_layout [1; 1] 1 2); [|lra| |].
    + rewrite depths_in_eq, mults2. unfold inb, inside. cbn -[Rleb Rltb Rplus]. rdec. reflexivity.
    + split; [simpl; lra|]. right. simpl. lra.
    + intros k [<-|[]]; cbn; lia.
  - apply (plain_mismatch _ _ _ [0] 2); [apply Rinv_0_lt_compat, pow_lt; lra| |left; reflexivity|discriminate].
    apply tiny. cbn. split; [simpl; lra|]. right. simpl. lra.
Qed.

(* make_absorption_function on structures of each kind *)
Lemma dispatch_rays res st w o : existsb is_tmm (rt_surfaces st) = true -> make_absorption_function (RRays res) (SRays st w) o = absorption_rt res st o.
Proof. intros H. cbn [make_absorption_function]. rewrite H. reflexivity. Qed.

Lemma fresnel_rays (o : aopts) (widths : list R) ifaces (fb : nat -> R -> R) N n : 0 < ao_db o -> n_points (rsum widths) (ao_db o) 0 N ->
  exists g, make_absorption_function (RRays (mk_rtres (sampled (ao_nwl o) fb (mults (ao_db o) N)) ifaces))
      (SRays (mk_rt (map to_surface (repeat (None, None) n)) widths) (rsum widths)) o = Ok g /\ proper (ao_nwl o) g /\
    forall w, (w < ao_nwl o)%nat -> forall x v, node g w x v <-> exists m, (m < N)%nat /\ x = INR m * ao_db o /\ v = 10 ^ 9 * fb w (INR m * ao_db o).
Proof.
  intros Hd HN. assert (P9 : 0 < 10 ^ 9) by (apply pow_lt; lra).
  assert (T : existsb is_tmm (map to_surface (repeat (None, None) n)) = false) by (induction n; auto).
  cbn [make_absorption_function rt_surfaces rr_profile]. rewrite T.
  destruct (plain_spec (ao_nwl o) (fun w x => fb w (x / 10 ^ 9)) (rsum widths * 10 ^ 9) (ao_db o) N Hd) as (g & G1 & G2 & G3); [apply points_scale; auto|].
  assert (E : forall m, INR m * (ao_db o * 10 ^ 9) / 10 ^ 9 = INR m * ao_db o) by (intros; field; lra).
  exists g. split; [|split; auto].
  - rewrite <- G1. f_equal; [|field; lra]. unfold sampled, mults. apply map_ext. intros w. rewrite !map_map. apply map_ext. intros m. rewrite E. reflexivity.
  - intros w Hw x v. rewrite (G3 w Hw). split; intros (m & A & B & C); exists m; rewrite E in *; auto.
Qed.
