From Coq Require Import Reals List ZArith Bool Lia Lra Sorting.Sorted.
From Verif Require Import Base Lib Model_TMM Proof_TMM3 Model_Absorb Spec_Absorb.
Import ListNotations.
Open Scope R_scope.

(* ---------- arrays with one row per wavelength ---------- *)

Definition rows {A} (n : nat) (F : nat -> list A) : list (list A) := map F (seq 0 n).
Lemma rows_length {A} n (F : nat -> list A) : length (rows n F) = n.
Proof. unfold rows. rewrite map_length, seq_length. auto. Qed.
Lemma rows_ext {A} n (F G : nat -> list A) : (forall i, (i < n)%nat -> F i = G i) -> rows n F = rows n G.
Proof. intros H. apply map_ext_in. intros i Hi. apply H. apply in_seq in Hi. lia. Qed.
Lemma map2_rows {A B C} (h : list A -> list B -> list C) n F G : map2 h (rows n F) (rows n G) = rows n (fun i => h (F i) (G i)).
Proof. unfold rows. generalize (seq 0 n). induction l; simpl; congruence. Qed.
Lemma nth_rows {A} n (F : nat -> list A) i : (i < n)%nat -> nth i (rows n F) [] = F i.
Proof. intros H. unfold rows. rewrite (nth_map_lt _ _ _ 0%nat) by (rewrite seq_length; auto). rewrite nth_seq0; auto. Qed.

Lemma bcast_same {A} (l : list A) n : length l = n -> bcast n l = Ok l.
Proof. intros <-. unfold bcast. rewrite Nat.eqb_refl. auto. Qed.
Lemma rmap_same {A} (l : list (list A)) n : (forall x, In x l -> length x = n) -> rmap (bcast n) l = Ok l.
Proof.
  induction l as [|x l IH]; intros H; auto. cbn [rmap]. rewrite bcast_same by (apply H; left; auto). cbn [rbind].
  rewrite IH; [reflexivity|]. intros y Hy. apply H. right. auto.
Qed.

Lemma count_filter (p : R -> bool) l : count (map p l) = length (filter p l).
Proof. unfold count. induction l as [|x l IH]; auto. cbn [map filter]. destruct (p x); cbn [length]; auto. Qed.

Lemma put_mask_filter (p : R -> bool) (f g : R -> R) l :
  put_mask (map p l) (map f (filter p l)) (map g l) = map (fun x => if p x then f x else g x) l.
Proof.
  induction l as [|x l IH]; auto. cbn [map filter]. destruct (p x); cbn [map put_mask]; rewrite IH; auto.
Qed.

(* ---------- fill ---------- *)

Lemma fill_eq pos starts ends d d' layers off p p' : d = d' -> p = p' ->
  fill pos starts ends d layers off p = fill pos starts ends d' layers off p'.
Proof. intros -> ->. auto. Qed.

Lemma fill_sampled (n : nat) (pos starts ends : list R) (s e : Z -> R) (f : nat -> R -> R) (layers : list Z) :
  (forall l, In l layers -> py_index starts l = Ok (s l) /\ py_index ends l = Ok (e l)) ->
  forall (off : nat) (pre : nat -> list R) (g : nat -> R -> R) (post : nat -> list R),
  (forall i, length (pre i) = off) ->
  fill pos starts ends
    (rows n (fun i => pre i ++ map (f i) (flat_map (fun l => filter (inside (s l) (e l)) pos) layers) ++ post i)) layers off
    (rows n (fun i => map (g i) pos)) =
  Ok (rows n (fun i => map (fun x => if existsb (fun l => inside (s l) (e l) x) layers then 10 ^ 9 * f i x else g i x) pos)).
Proof.
  induction layers as [|l r IH]; intros Hl off pre g post Hpre; [reflexivity|].
  destruct (Hl l (or_introl eq_refl)) as [Hs He]. cbn [fill]. rewrite Hs, He. cbn [rbind].
  set (p := inside (s l) (e l)) in *. rewrite count_filter.
  assert (V : scale (10 ^ 9) (cols off (length (filter p pos))
       (rows n (fun i => pre i ++ map (f i) (flat_map (fun l0 => filter (inside (s l0) (e l0)) pos) (l :: r)) ++ post i))) =
     rows n (fun i => map (fun x => 10 ^ 9 * f i x) (filter p pos))).
  { unfold scale, cols, rows. rewrite !map_map. apply map_ext. intros i. cbn [flat_map]. fold p. rewrite map_app.
    rewrite <- !app_assoc. rewrite skipn_app, (Hpre i), Nat.sub_diag, skipn_all2 by (rewrite Hpre; auto).
    rewrite skipn_O. cbn [app]. rewrite firstn_app, map_length, Nat.sub_diag, firstn_O, app_nil_r.
    rewrite firstn_all2 by (rewrite map_length; auto). rewrite map_map. auto. }
  unfold assign. rewrite V, rows_length. rewrite bcast_same by apply rows_length. cbn [rbind].
  rewrite count_filter. rewrite rmap_same.
  2:{ intros x Hx. apply in_map_iff in Hx. destruct Hx as (i & <- & _). apply map_length. }
  cbn [rbind]. rewrite map2_rows.
  specialize (IH (fun l0 H => Hl l0 (or_intror H)) (off + length (filter p pos))%nat
     (fun i => pre i ++ map (f i) (filter p pos)) (fun i x => if p x then 10 ^ 9 * f i x else g i x) post).
  etransitivity; [|etransitivity; [apply IH|]].
  - apply fill_eq; [|apply rows_ext; intros; apply put_mask_filter].
    apply rows_ext. intros i _. cbn [flat_map]. fold p. rewrite map_app, <- !app_assoc. auto.
  - intros i. rewrite app_length, map_length, Hpre. auto.
  - f_equal. apply rows_ext. intros i _. apply map_ext. intros x. cbn [existsb]. fold p. destruct (p x); cbn [orb]; auto.
    destruct existsb; auto.
Qed.

Lemma zeros_rows n m : zeros n m = rows n (fun _ => repeat 0 m).
Proof. unfold zeros, rows. generalize 0%nat. induction n; intros k; cbn [repeat seq map]; f_equal; auto. Qed.
Lemma map_zero {A} (l : list A) : map (fun _ => 0) l = repeat 0 (length l).
Proof. induction l; simpl; congruence. Qed.

Definition inb (w : list R) (k : nat) (x : R) : bool := inside (rsum (firstn (k - 1) w)) (rsum (firstn k w)) x.
Definition anyin (w : list R) (layers : list nat) (x : R) : bool := existsb (fun k => inb w k x) layers.

Lemma inside_true a b x : inside a b x = true <-> a <= x < b.
Proof. unfold inside. rewrite andb_true_iff, Rleb_true, Rltb_true. tauto. Qed.
Lemma anyin_true w layers x : valid_layers w layers -> anyin w layers x = true <-> in_layers w layers x.
Proof.
  intros V. unfold anyin, in_layers, in_layer. rewrite existsb_exists. split.
  - intros (k & Hk & H). apply inside_true in H. exists k. split; auto.
  - intros (k & Hk & _ & H). exists k. split; auto. apply inside_true. auto.
Qed.
Lemma shown_if w layers f x v : valid_layers w layers -> v = (if anyin w layers x then 10 ^ 9 * f x else 0) <-> shown w layers f x v.
Proof.
  intros V. unfold shown. rewrite <- (anyin_true w layers x V). destruct (anyin w layers x); split; intuition congruence.
Qed.

Lemma depths_in_eq w layers pts : depths_in w layers pts = flat_map (fun k => filter (inb w k) pts) layers.
Proof.
  unfold depths_in. apply flat_map_ext. intros k. apply filter_ext. intros x. unfold inb, inside, Rleb, Rltb.
  destruct Rle_dec, Rlt_dec; auto.
Qed.

Lemma filled_sampled n pos w f layers post : valid_layers w layers ->
  filled n pos w (rows n (fun i => map (f i) (depths_in w layers pos) ++ post i)) (map Z.of_nat layers) =
  Ok (rows n (fun i => map (fun x => if anyin w layers x then 10 ^ 9 * f i x else 0) pos)).
Proof.
  intros V. unfold filled. rewrite zeros_rows.
  pose proof (fill_sampled n pos (layer_start w) (layer_end w) (fun z => rsum (firstn (Z.to_nat z - 1) w))
    (fun z => rsum (firstn (Z.to_nat z) w)) f (map Z.of_nat layers)) as F.
  etransitivity; [|etransitivity; [apply (F) with (off := 0%nat) (pre := fun _ => []) (g := fun _ _ => 0) (post := post)|]].
  - apply fill_eq; [|apply rows_ext; intros; rewrite map_zero; auto].
    apply rows_ext. intros i _. cbn [app]. f_equal. rewrite depths_in_eq, flat_map_concat_map, flat_map_concat_map, map_map.
    do 2 f_equal. apply map_ext. intros k. rewrite Nat2Z.id. auto.
  - intros z Hz. apply in_map_iff in Hz. destruct Hz as (k & <- & Hk). rewrite Nat2Z.id.
    apply (layer_bounds w k). apply V. auto.
  - auto.
  - f_equal. apply rows_ext. intros i _. apply map_ext. intros x.
    replace (existsb _ (map Z.of_nat layers)) with (anyin w layers x); auto.
    unfold anyin. clear. induction layers as [|k r IH]; auto. cbn [map existsb]. rewrite Nat2Z.id, IH. auto.
Qed.

Lemma sampled_rows n f pts : sampled n f pts = rows n (fun i => map (f i) pts).
Proof. reflexivity. Qed.

(* ---------- grids ---------- *)

Lemma arange_mults W d eps eps' n : 0 < d -> 0 <= eps' <= eps -> n_points W d eps n -> arange0 (W - eps') d = mults d n.
Proof.
  intros Hd He (H1 & H2). unfold arange0, mults. do 2 f_equal.
  assert (Hdiv : forall a b, a < b * d -> a / d < b).
  { intros a b H. apply Rmult_lt_reg_r with d; auto. unfold Rdiv. rewrite Rmult_assoc, Rinv_l; lra. }
  assert (Hdiv' : forall a b, a <= b * d -> a / d <= b).
  { intros a b H. apply Rmult_le_reg_r with d; auto. unfold Rdiv. rewrite Rmult_assoc, Rinv_l; lra. }
  assert (Hdiv2 : forall a b, b * d < a -> b < a / d).
  { intros a b H. apply Rmult_lt_reg_r with d; auto. unfold Rdiv. rewrite Rmult_assoc, Rinv_l; lra. }
  destruct n as [|n].
  - assert (Zceil ((W - eps') / d) <= 0)%Z; [|lia]. pose proof (Zceil_bounds ((W - eps') / d)) as B.
    assert ((W - eps') / d <= 0) by (apply Hdiv'; simpl in H1; lra).
    assert (IZR (Zceil ((W - eps') / d)) < 1) by lra. apply lt_IZR in H0. lia.
  - destruct H2 as [H2|H2]; [discriminate|]. replace (S n - 1)%nat with n in H2 by lia.
    rewrite (Zceil_unique ((W - eps') / d) (Z.of_nat (S n))); [lia|]. rewrite <- INR_IZR_INZ. split.
    + rewrite S_INR. replace (INR n + 1 - 1) with (INR n) by lra. apply Hdiv2. lra.
    + apply Hdiv'. lra.
Qed.

Lemma sorted_increasing l : StronglySorted Rlt l -> increasing_pos l.
Proof.
  intros H. induction H as [|x l H IH Hx]; intros i j Hij; cbn [length] in Hij; [lia|].
  destruct i, j; try lia; cbn [nth].
  - rewrite Forall_forall in Hx. apply Hx. apply nth_In. lia.
  - apply IH. lia.
Qed.
Lemma sorted_app l m : StronglySorted Rlt l -> StronglySorted Rlt m -> (forall x y, In x l -> In y m -> x < y) ->
  StronglySorted Rlt (l ++ m).
Proof.
  intros Hl Hm H. induction Hl as [|x l Hl IH Hx]; auto. cbn [app]. constructor.
  - apply IH. intros; apply H; auto. right; auto.
  - rewrite Forall_forall in *. intros y Hy. apply in_app_or in Hy. destruct Hy; [auto|]. apply H; auto. left; auto.
Qed.
Lemma mults_sorted d n c a : 0 < d -> 0 < a -> StronglySorted Rlt (map (fun x => x * a + c) (mults d n)).
Proof.
  intros Hd Ha. unfold mults. rewrite map_map. generalize 0%nat. induction n; intros k; cbn [seq map]; constructor; [apply IHn|].
  rewrite Forall_forall. intros y Hy. apply in_map_iff in Hy. destruct Hy as [j [<- Hj]]. apply in_seq in Hj.
  assert (INR k < INR j) by (apply lt_INR; lia). apply Rplus_lt_compat_r. apply Rmult_lt_compat_r; auto with real.
Qed.
Lemma in_mults d n x : In x (mults d n) <-> exists m, (m < n)%nat /\ x = INR m * d.
Proof.
  unfold mults. rewrite in_map_iff. split.
  - intros (m & <- & H). apply in_seq in H. exists m. split; auto. lia.
  - intros (m & H & ->). exists m. split; auto. apply in_seq. lia.
Qed.
Lemma points_range W d eps n m : 0 < d -> 0 <= eps -> n_points W d eps n -> (m < n)%nat -> 0 <= INR m * d < W.
Proof.
  intros Hd He (_ & [H|H]) Hm; [lia|]. pose proof (pos_INR m). split; [apply Rmult_le_pos; lra|].
  assert (INR m <= INR (n - 1)) by (apply le_INR; lia). apply Rmult_le_compat_r with (r := d) in H1; lra.
Qed.

(* ---------- nodes ---------- *)

Definition gen_of (n : nat) (nodes : list (R * (nat -> R))) : generation :=
  mk_gen (map fst nodes) (rows n (fun i => map (fun nd => snd nd i) nodes)).

Lemma gen_node n nodes i x v : (i < n)%nat -> node (gen_of n nodes) i x v <-> exists nd, In nd nodes /\ fst nd = x /\ snd nd i = v.
Proof.
  intros Hi. unfold node, gen_of. cbn [g_pos g_val]. rewrite nth_rows by auto. split.
  - intros (j & H1 & H2). rewrite nth_error_map in H1, H2. destruct (nth_error nodes j) as [nd|] eqn:E; [|discriminate].
    apply nth_error_In in E. exists nd. cbn [option_map] in *. split; auto. split; congruence.
  - intros (nd & H & <- & <-). apply In_nth_error in H. destruct H as [j H]. exists j. rewrite !nth_error_map, H. auto.
Qed.
Lemma gen_proper n nodes : StronglySorted Rlt (map fst nodes) -> proper n (gen_of n nodes).
Proof.
  intros H. unfold proper, gen_of. cbn [g_pos g_val]. split; [apply sorted_increasing; auto|].
  split; [apply rows_length|]. intros i Hi. rewrite nth_rows by auto. rewrite !map_length. auto.
Qed.
Lemma interp_gen n nodes : interp1d (map fst nodes) (rows n (fun i => map (fun nd => snd nd i) nodes)) = Ok (gen_of n nodes).
Proof.
  unfold interp1d. rewrite (proj2 (forallb_forall _ _)); auto. intros r Hr. apply in_map_iff in Hr.
  destruct Hr as (i & <- & _). rewrite !map_length. apply Nat.eqb_refl.
Qed.
Lemma hstack_cons t u r : hstack (t :: u :: r) = rbind (hstack (u :: r)) (fun u =>
              if Nat.eqb (length t) (length u) then Ok (map2 (@app R) t u) else Err ValueError).
Proof. reflexivity. Qed.
Lemma hstack_rows n (Fs : list (nat -> list R)) : Fs <> [] ->
  hstack (map (rows n) Fs) = Ok (rows n (fun i => concat (map (fun F => F i) Fs))).
Proof.
  intros H. induction Fs as [|F r IH]; [congruence|]. destruct r as [|G r].
  - cbn. f_equal. apply rows_ext. intros. rewrite app_nil_r. auto.
  - cbn [map] in *. rewrite hstack_cons.
    etransitivity; [exact (f_equal (fun q => rbind q _) (IH ltac:(discriminate)))|]. cbn [rbind]. rewrite !rows_length, Nat.eqb_refl. f_equal. rewrite map2_rows. auto.
Qed.

(* ---------- C64: matrix method ---------- *)

Lemma py0 {A} (a : A) l : py_index (a :: l) 0 = Ok a. Proof. reflexivity. Qed.
Lemma py1 {A} (a b : A) l : py_index (a :: b :: l) 1 = Ok b. Proof. reflexivity. Qed.
Lemma py2 {A} (a b c : A) l : py_index (a :: b :: c :: l) 2 = Ok c. Proof. reflexivity. Qed.

Lemma nm_sum w : rsum (nm w) = rsum w * 10 ^ 9.
Proof. unfold nm. rewrite <- (map_ext (fun x => 10 ^ 9 * x)) by (intros; lra). rewrite rsum_map_mult. lra. Qed.
Lemma nm_length w : length (nm w) = length w.
Proof. apply map_length. Qed.

Lemma sampled_cols n f d m k : (m <= k)%nat -> cols 0 m (sampled n f (mults d k)) = rows n (fun i => map (f i) (mults d m)).
Proof.
  intros H. unfold cols, sampled, rows. rewrite map_map. apply map_ext. intros i. rewrite skipn_O.
  unfold mults. rewrite firstn_map, firstn_map. do 2 f_equal. replace k with (m + (k - m))%nat by lia.
  rewrite seq_app, firstn_app, seq_length, Nat.sub_diag, firstn_O, app_nil_r. apply firstn_all2. rewrite seq_length. auto.
Qed.

Section Matrix.
  Variables (o : aopts) (wf wk : list R) (wb : R) (pf pk : option (list nat)) (rest : list elem)
    (ff fb fk : nat -> R -> R) (nf nb nk nb' : nat) (more : list table) (bulks : list (option table))
    (postf postk : nat -> list R).
  Let n := ao_nwl o.
  Let zl (p : option (list nat)) := option_map (map Z.of_nat) p.
  Hypothesis Hd : 0 < ao_d o.
  Hypothesis Hdb : 0 < ao_db o.
  Hypothesis Hbulk : ao_bulk o = true.
  Hypothesis Vf : valid_layers wf (layers_of pf).
  Hypothesis Vk : valid_layers wk (layers_of pk).
  Hypothesis Nf : n_points (rsum (nm wf)) (ao_d o * 10 ^ 9) (/ 10 ^ 12) nf.
  Hypothesis Nk : n_points (rsum (nm wk)) (ao_d o * 10 ^ 9) (/ 10 ^ 12) nk.
  Hypothesis Nb : n_points (wb * 10 ^ 6) (ao_db o * 10 ^ 6) (/ 10 ^ 12) nb.
  Hypothesis Nb' : (nb <= nb')%nat.

  Definition m_nodes : list (R * (nat -> R)) :=
    map (fun x => (x / 10 ^ 9, fun i => if anyin (nm wf) (layers_of pf) x then 10 ^ 9 * ff i x else 0)) (mults (ao_d o * 10 ^ 9) nf)
    ++ map (fun x => (x * 10 ^ 6 / 10 ^ 6 + rsum (nm wf) / 10 ^ 9, fun i => fb i x)) (mults (ao_db o) nb)
    ++ map (fun x => (x / 10 ^ 9 + rsum (nm wf) / 10 ^ 9 + wb * 10 ^ 6 / 10 ^ 6,
                      fun i => if anyin (nm wk) (layers_of pk) x then 10 ^ 9 * fk i x else 0)) (mults (ao_d o * 10 ^ 9) nk).

  Lemma surf_ok pos w p f post : valid_layers w (layers_of p) ->
    surface_profile n pos w (rows n (fun i => map (f i) (depths_in w (layers_of p) pos) ++ post i)) (zl p) =
    Ok (rows n (fun i => map (fun x => if anyin w (layers_of p) x then 10 ^ 9 * f i x else 0) pos)).
  Proof.
    intros V. unfold surface_profile, zl. destruct p as [l|]; cbn [option_map layers_of] in *.
    - apply filled_sampled. auto.
    - rewrite zeros_rows. f_equal. apply rows_ext. intros. rewrite <- map_zero. auto.
  Qed.

  Lemma matrix_ok :
    absorption_matrix
      (Some ((rows n (fun i => map (ff i) (depths_in (nm wf) (layers_of pf) (mults (ao_d o * 10 ^ 9) nf)) ++ postf i))
             :: (rows n (fun i => map (fk i) (depths_in (nm wk) (layers_of pk) (mults (ao_d o * 10 ^ 9) nk)) ++ postk i)) :: more,
             Some (sampled n fb (mults (ao_db o) nb')) :: bulks))
      (EIface wf (zl pf) :: EBulk wb :: EIface wk (zl pk) :: rest) o = Ok (gen_of n m_nodes).
  Proof.
    unfold absorption_matrix.
    repeat (rewrite ?py0, ?py1, ?py2; cbn [rbind iface_of bulk_of]).
    cbn [rbind iface_of bulk_of fst snd].
    assert (Hd9 : 0 < ao_d o * 10 ^ 9) by (apply Rmult_lt_0_compat; [auto|apply pow_lt; lra]).
    assert (Hd6 : 0 < ao_db o * 10 ^ 6) by (apply Rmult_lt_0_compat; [auto|apply pow_lt; lra]).
    assert (He : 0 <= / 10 ^ 12 <= / 10 ^ 12) by (split; [left; apply Rinv_0_lt_compat; apply pow_lt; lra|lra]).
    rewrite !(arange_mults _ _ (/ 10 ^ 12) (/ 10 ^ 12) nf) by auto.
    rewrite !(arange_mults _ _ (/ 10 ^ 12) (/ 10 ^ 12) nk) by auto.
    rewrite !(arange_mults _ _ (/ 10 ^ 12) (/ 10 ^ 12) nb) by auto.
    fold n. rewrite surf_ok by (intros k Hk; rewrite nm_length; auto). cbn [rbind].
    rewrite surf_ok by (intros k Hk; rewrite nm_length; auto). cbn [rbind]. rewrite Hbulk.
    assert (Lb : forall d m, length (mults d m) = m) by (intros; unfold mults; rewrite map_length, seq_length; auto).
    rewrite Lb, sampled_cols by auto.
    pose proof (hstack_rows n
      [fun i => map (fun x => if anyin (nm wf) (layers_of pf) x then 10 ^ 9 * ff i x else 0) (mults (ao_d o * 10 ^ 9) nf);
       fun i => map (fb i) (mults (ao_db o) nb);
       fun i => map (fun x => if anyin (nm wk) (layers_of pk) x then 10 ^ 9 * fk i x else 0) (mults (ao_d o * 10 ^ 9) nk)]) as Hh.
    cbn [map] in Hh. rewrite Hh by discriminate. cbn [rbind]. rewrite <- interp_gen. f_equal.
    - unfold m_nodes. rewrite !map_app, !map_map. f_equal. f_equal. cbn [fst]. unfold mults. rewrite !map_map.
      apply map_ext. intros i. cbn [fst]. f_equal. unfold Rdiv. f_equal. ring.
    - apply rows_ext. intros i _. unfold m_nodes. cbn [map concat]. rewrite app_nil_r, !map_app, !map_map. auto.
  Qed.
End Matrix.
