(* RT: entries of the matrices as averages over independent rays. *)
From Coq Require Import Reals List Bool ZArith Lia Lra FunctionalExtensionality.
From Verif Require Import Base Lib Model_Angles Model_Ideal Model_MatMul Model_Optics Model_OpticsC Model_RayIface Model_RT Model_Surface Model_RTStruct
  Model_Trace Model_StackCalc Model_RTCalc
  Spec_Angles Spec_Matrix Spec_Optics Spec_OpticsC Spec_RayIface Spec_RT Spec_Mean Spec_Chance Spec_RTCalc
  Proof_Angles Proof_AnglesProps Proof_RT Proof_RT2 Proof_Trace3 Proof_RTRows Proof_RTCalc Proof_Mean Proof_Trees Proof_TreeRay.
Import ListNotations.
Open Scope R_scope.

(* ---------- independent parts, some of which count ---------- *)

Section Parts.
  Variables (used : nat -> bool).
  Fixpoint cnt (N s : nat) : nat := match N with O => 0 | S N' => (if used s then 1 else 0) + cnt N' (S s) end.

  Lemma spread_used n (h : nat -> (nat -> R) -> R) (m : nat -> R) : forall N s,
    (forall k, tree n (h k)) -> (forall k, (k < s + N)%nat -> mean n (h k) (m k)) -> (forall k u, fractions u -> 0 <= h k u <= 1) -> (forall k u, used k = false -> h k u = 0) ->
    mean (N * n) (fun u => rsum (map (fun k => h (s + k)%nat (fun j => u (k * n + j)%nat) - m (s + k)%nat) (seq 0 N))) 0 /\
    exists v, mean (N * n) (fun u => rsum (map (fun k => h (s + k)%nat (fun j => u (k * n + j)%nat) - m (s + k)%nat) (seq 0 N)) ^ 2) v /\ v <= INR (cnt N s) / 4.
  Proof.
    intros N. induction N as [|N IH]; intros s HT HM HR HU.
    - cbn [Nat.mul seq map rsum mean INR cnt]. split; [reflexivity|]. exists 0. split; [intros; ring|lra].
    - pose proof (HM s ltac:(lia)) as HMs. destruct (IH (S s) HT ltac:(intros; apply HM; lia) HR HU) as (M & v & V & B). set (S' := fun u => rsum (map (fun k => h (S s + k)%nat (fun j => u (k * n + j)%nat) - m (S s + k)%nat) (seq 0 N))) in *.
      assert (E : forall u : nat -> R, rsum (map (fun k => h (s + k)%nat (fun j => u (k * n + j)%nat) - m (s + k)%nat) (seq 0 (S N))) = (h s u - m s) + S' (fun i => u (n + i)%nat)).
      { intros u. cbn [seq map rsum]. rewrite <- seq_shift, map_map. f_equal.
        - rewrite Nat.add_0_r. reflexivity.
        - unfold S'. f_equal. apply map_ext. intros k. replace (s + S k)%nat with (S s + k)%nat by lia. do 2 f_equal. apply functional_extensionality. intros j. f_equal. lia. }
      assert (Mh : mean n (fun u => h s u - m s) 0).
      { apply (mean_ext n (fun u => - m s + 1 * h s u)); [intros; ring|]. replace 0 with (- m s + 1 * m s) by ring. apply mean_affine, HMs. }
      cbn [Nat.mul]. split.
      + apply (mean_ext _ (fun u => (h s u - m s) + S' (fun i => u (n + i)%nat))); [intros u _; symmetry; apply E|].
        replace 0 with (0 + 0) by ring. now apply mean_apart.
      + destruct (tree_mean n (fun u => (h s u - m s) ^ 2)) as [q Q]; [apply (tree_map (fun x => (x - m s) ^ 2)), HT|].
        exists (q + 2 * (0 * 0) + v). split.
        * apply (mean_ext _ (fun u => ((h s u - m s) ^ 2 + (0 + 2 * ((h s u - m s) * S' (fun i => u (n + i)%nat)))) + (fun u' => S' u' ^ 2) (fun i => u (n + i)%nat))).
          { intros u _. rewrite E. cbn beta. ring. }
          apply mean_plus; [|apply (mean_later n (N * n) (fun u' => S' u' ^ 2) v V)].
          apply mean_plus; [now apply mean_first|]. replace (2 * (0 * 0)) with (0 + 2 * (0 * 0)) by ring. apply mean_affine. now apply mean_product.
        * cbn [cnt]. rewrite plus_INR. assert (Q2 : q <= m s ^ 2 + (1 - 2 * m s) * m s).
          { apply (mean_le n (fun u => (h s u - m s) ^ 2) (fun u => m s ^ 2 + (1 - 2 * m s) * h s u)); [|exact Q|apply mean_affine, HMs].
            intros u Hu. destruct (HR s u Hu) as [A1 A2]. assert (0 <= h s u * (1 - h s u)) by (apply Rmult_le_pos; lra).
            replace ((h s u - m s) ^ 2) with (m s ^ 2 + (1 - 2 * m s) * h s u - h s u * (1 - h s u)) by ring. lra. }
          destruct (used s) eqn:US; cbn [INR].
          { pose proof (pow2_ge_0 (m s - 1 / 2)) as P. replace (m s ^ 2 + (1 - 2 * m s) * m s) with (1 / 4 - (m s - 1 / 2) ^ 2) in Q2 by field. lra. }
          { assert (Z : m s = 0). { apply (mean_unique n (h s) (m s) 0 HMs). apply (mean_ext n (fun _ => 0)); [intros u _; symmetry; now apply HU|apply mean_const]. } rewrite Z in Q2. lra. }
  Qed.

  Lemma off_used n N (h : nat -> (nat -> R) -> R) (mk : nat -> R) : (0 < cnt N 0)%nat -> (forall k, tree n (h k)) -> (forall k, (k < N)%nat -> mean n (h k) (mk k)) ->
    (forall k u, fractions u -> 0 <= h k u <= 1) -> (forall k u, used k = false -> h k u = 0) ->
    let f := fun u : nat -> R => / INR (cnt N 0) * rsum (map (fun k => h k (fun j => u (k * n + j)%nat)) (seq 0 N)) in
    let m := / INR (cnt N 0) * rsum (map mk (seq 0 N)) in
    mean (N * n) f m /\ forall eps, 0 < eps ->
      exists p, mean (N * n) (fun u => if Rleb eps (Rabs (f u - m)) then 1 else 0) p /\ 0 <= p <= 1 / (4 * INR (cnt N 0) * eps ^ 2).
  Proof.
    intros HN HT HM HR HU f m. set (C := cnt N 0) in *. assert (NP : 0 < INR C) by now apply lt_0_INR.
    destruct (spread_used n h mk N 0 HT HM HR HU) as (M & v & V & B). cbn [Nat.add] in M, V. fold C in B.
    assert (E : forall u, f u - m = / INR C * rsum (map (fun k => h k (fun j => u (k * n + j)%nat) - mk k) (seq 0 N))).
    { intros u. unfold f, m. assert (L : forall (a b : nat -> R) l, rsum (map (fun k => a k - b k) l) = rsum (map a l) - rsum (map b l)) by (induction l as [|x l IH]; cbn [map rsum]; [ring|rewrite IH; ring]).
      rewrite L. ring. }
    assert (TF : tree (N * n) f).
    { apply (tree_map (fun l => / INR C * rsum l)). exact (tree_blocks n h N 0 HT). }
    split.
    - apply (mean_ext _ (fun u => m + / INR C * rsum (map (fun k => h k (fun j => u (k * n + j)%nat) - mk k) (seq 0 N)))).
      + intros u _. rewrite <- E. ring.
      + pose proof (mean_affine _ _ _ m (/ INR C) M) as Q. rewrite Rmult_0_r, Rplus_0_r in Q. exact Q.
    - intros eps He. destruct (tree_mean (N * n) (fun u => if Rleb eps (Rabs (f u - m)) then 1 else 0)) as [p P]; [exact (tree_map (fun x => if Rleb eps (Rabs (x - m)) then 1 else 0) _ f TF)|].
      exists p. split; [exact P|]. split.
      + apply (mean_le (N * n) (fun _ => 0) (fun u => if Rleb eps (Rabs (f u - m)) then 1 else 0)); [|apply mean_const|exact P]. intros u _. destruct (Rleb _ _); lra.
      + apply Rle_trans with (0 + / (INR C * eps) ^ 2 * v).
        * apply (mean_le (N * n) (fun u => if Rleb eps (Rabs (f u - m)) then 1 else 0)
            (fun u => 0 + / (INR C * eps) ^ 2 * rsum (map (fun k => h k (fun j => u (k * n + j)%nat) - mk k) (seq 0 N)) ^ 2)); [|exact P|now apply mean_affine].
          intros u _. specialize (E u). set (x := rsum (map (fun k => h k (fun j => u (k * n + j)%nat) - mk k) (seq 0 N))) in *. rewrite Rplus_0_l.
          assert (D : 0 < INR C * eps) by (apply Rmult_lt_0_compat; lra). assert (D2 : 0 < / (INR C * eps) ^ 2) by (apply Rinv_0_lt_compat, pow_lt; lra).
          destruct (Rleb eps (Rabs (f u - m))) eqn:Q; [|apply Rmult_le_pos; [lra|apply pow2_ge_0]]. apply Rleb_true in Q. rewrite E in Q.
          assert (Q2 : INR C * eps <= Rabs x).
          { rewrite Rabs_mult, (Rabs_right (/ INR C)) in Q by (left; now apply Rinv_0_lt_compat).
            replace (Rabs x) with (INR C * (/ INR C * Rabs x)) by (field; lra). apply Rmult_le_compat_l; lra. }
          rewrite <- (Rinv_l ((INR C * eps) ^ 2)) by (apply pow_nonzero; lra). apply Rmult_le_compat_l; [lra|]. rewrite <- (pow2_abs x). apply pow_incr. lra.
        * rewrite Rplus_0_l. replace (1 / (4 * INR C * eps ^ 2)) with (/ (INR C * eps) ^ 2 * (INR C / 4)) by (field; lra).
          apply Rmult_le_compat_l; [left; apply Rinv_0_lt_compat, pow_lt, Rmult_lt_0_compat; lra|exact B].
  Qed.

  Lemma cnt_filter : forall N s, cnt N s = length (filter used (seq s N)).
  Proof. induction N as [|N IH]; intros s; [reflexivity|]. cbn [cnt seq filter]. rewrite IH. destruct (used s); reflexivity. Qed.
  Lemma cnt_enough N l : NoDup l -> (forall i, In i l -> (i < N)%nat /\ used i = true) -> (length l <= cnt N 0)%nat.
  Proof. intros D H. rewrite cnt_filter. apply NoDup_incl_length; [exact D|]. intros i Hi. apply filter_In. destruct (H i Hi). split; [apply in_seq; lia|assumption]. Qed.
  Lemma cnt_sum : forall N s, rsum (map (fun k => if used k then 1 else 0) (seq s N)) = INR (cnt N s).
  Proof. induction N as [|N IH]; intros s; [reflexivity|]. cbn [seq map rsum cnt]. rewrite IH, plus_INR. destruct (used s); reflexivity. Qed.
End Parts.

(* averages exist *)
Lemma choose_means n (h : nat -> (nat -> R) -> R) : (forall k, tree n (h k)) -> forall K, exists mk : nat -> R, forall k, (k < K)%nat -> mean n (h k) (mk k).
Proof.
  intros HT. induction K as [|K [mk IH]]; [exists (fun _ => 0); intros; lia|]. destruct (tree_mean n (h K) (HT K)) as [x X].
  exists (fun k => if Nat.eqb k K then x else mk k). intros k Hk. destruct (Nat.eqb k K) eqn:E; [apply Nat.eqb_eq in E; now subst|apply Nat.eqb_neq in E; apply IH; lia].
Qed.

(* ---------- one ray ---------- *)

(* one surface: the first check is the last *)
Lemma one_check outer fuel E zc r0 x y : single_ray_interface (S outer) fuel [(E, zc)] r0 x y =
  let d := vscale (/ norm (vsub (mkv x y 0) (vadd r0 (mkv x y 0)))) (vsub (mkv x y 0) (vadd r0 (mkv x y 0))) in
  match irun fuel E (vz d) (istart (place (e_Lx E) (e_Ly E) zc (Some (vadd r0 (mkv x y 0))) d) d 1 0) with
  | None => None
  | Some (Err e) => Some (Err e)
  | Some (Ok res) => match r_out res with
      | OReflected th => Some (Ok {| ro_theta := th; ro_A := None; ro_loc := 10; ro_dir := r_dir res; ro_checks := 1 |})
      | OTransmitted th => Some (Ok {| ro_theta := th; ro_A := None; ro_loc := 10; ro_dir := r_dir res; ro_checks := 1 |})
      | OAbsorbed A => Some (Ok {| ro_theta := 10; ro_A := Some A; ro_loc := r_loc res; ro_dir := r_dir res; ro_checks := 1 |})
      end
  end.
Proof.
  unfold single_ray_interface. cbn [ray_iface py_index]. cbv zeta. unfold py_index. cbn [length nth_error]. cbn. unfold single_interface_check.
  destruct (irun _ _ _ _) as [[res|e]|]; [|reflexivity|reflexivity]. destruct (r_out res); reflexivity.
Qed.

Lemma from_0 v : from 0 v = v.
Proof. apply functional_extensionality. intros i. unfold from. f_equal. lia. Qed.

Lemma launch_tree outer fuel h surf dec theta phi sh : by_comparison dec ->
  tree fuel (fun v => launch outer fuel h surf dec theta phi {| sh_x := sh_x sh; sh_y := sh_y sh; sh_rnd := v; sh_xy := sh_xy sh; sh_h := sh_h sh |}).
Proof.
  intros HD. unfold launch. cbn [sh_x sh_y]. destruct outer as [|outer]; [apply (tree_const fuel (@None (res ray)))|].
  set (E0 := env_of surf dec sh).
  pose proof (uses_irun (option (res ray)) E0 0 None (fun e => Some (Err e))
    (fun x (_ : nat -> R) => match r_out x with
       | OReflected th | OTransmitted th => let out := {| ro_theta := th; ro_A := None; ro_loc := 10; ro_dir := r_dir x; ro_checks := 1 |} in Some (Ok {| y_out := out; y_phi := out_phi out |})
       | OAbsorbed A => let out := {| ro_theta := 10; ro_A := Some A; ro_loc := r_loc x; ro_dir := r_dir x; ro_checks := 1 |} in Some (Ok {| y_out := out; y_phi := out_phi out |}) end)
    HD (fun x => uses_const _ _ _) fuel) as U.
  set (r0 := start_vector h theta phi). set (d := vscale (/ norm (vsub (mkv (sh_x sh) (sh_y sh) 0) (vadd r0 (mkv (sh_x sh) (sh_y sh) 0)))) (vsub (mkv (sh_x sh) (sh_y sh) 0) (vadd r0 (mkv (sh_x sh) (sh_y sh) 0)))).
  destruct (U (vz d) (istart (place (su_Lx surf) (su_Ly surf) (su_zcov surf) (Some (vadd r0 (mkv (sh_x sh) (sh_y sh) 0))) d) d 1 0)) as [_ T].
  rewrite Nat.add_0_r in T. cbn [istart i_nint] in T. revert T. apply tree_ext. intros v _. rewrite from_0.
  rewrite one_check. cbv zeta. fold r0 d. change (env_of surf dec {| sh_x := sh_x sh; sh_y := sh_y sh; sh_rnd := v; sh_xy := sh_xy sh; sh_h := sh_h sh |}) with (with_rnd E0 v).
  cbn [with_rnd e_Lx e_Ly]. change (e_Lx E0) with (su_Lx surf). change (e_Ly E0) with (su_Ly surf). unfold go_on.
  destruct (irun fuel (with_rnd E0 v) (vz d) _) as [[x|e]|]; [|reflexivity|reflexivity]. destruct (r_out x); reflexivity.
Qed.

(* ---------- sums over all rays ---------- *)

Lemma seq_by nb : forall n a, seq (nb + a) n = map (Nat.add nb) (seq a n).
Proof. induction n as [|n IH]; intros a; [reflexivity|]. cbn [seq map]. f_equal. rewrite <- IH. f_equal. lia. Qed.

Lemma pairs_sum nb (f : beam * ray -> R) : forall beams (F : nat -> R),
  (forall i b, nth_error beams i = Some b -> length (b_rays b) = nb /\ forall c y, nth_error (b_rays b) c = Some y -> f (b, y) = F (i * nb + c)%nat) ->
  rsum (map f (pairs beams)) = rsum (map F (seq 0 (length beams * nb))).
Proof.
  induction beams as [|b beams IH]; intros F H; [reflexivity|]. unfold pairs. cbn [flat_map length Nat.mul]. rewrite map_app, rsum_app, seq_app, map_app, rsum_app. f_equal.
  - destruct (H 0%nat b eq_refl) as [L E]. rewrite map_map. f_equal. apply nth_ext with (d := 0) (d' := 0); [rewrite !map_length, seq_length; exact L|].
    intros c Hc. rewrite map_length in Hc. destruct (nth_error (b_rays b) c) as [y|] eqn:Ey; [|apply nth_error_None in Ey; lia].
    rewrite (nth_error_nth (map (fun x => f (b, x)) (b_rays b)) c 0 (x := f (b, y))) by (rewrite nth_error_map, Ey; reflexivity).
    rewrite (nth_indep _ 0 (F 0%nat)) by (rewrite map_length, seq_length; lia). rewrite map_nth, seq_nth by lia. rewrite (E c y Ey). reflexivity.
  - fold (pairs beams). rewrite (IH (fun k => F (nb + k)%nat)).
    + cbn [Nat.add]. f_equal. rewrite <- (Nat.add_0_r nb) at 2. rewrite seq_by, map_map. reflexivity.
    + intros i b' Hi. destruct (H (S i) b' Hi) as [L E]. split; [exact L|]. intros c y Hc. rewrite (E c y Hc). f_equal. lia.
Qed.

Section Columns.
  Variables (outer fuel : nat) (s : side) (only : bool) (o : rm_options) (table : option (Z -> R -> table_entry)) (n_abs : nat) (inc trn : material)
    (texture : rtsurf * rtsurf) (z : rm_draws) (G : garbage) (g : grid) (h n : nat) (dirs : list (R * R)).
  Hypothesis HQ : sound_request s o table n_abs inc trn texture z.
  Hypothesis HG : angular_grid o g.
  Hypothesis Hh : length (g_av g) = (2 * h)%nat.
  Hypothesis HI : inclined only o z.
  Hypothesis HD : rm_directions only o z g = Ok dirs.
  Hypothesis HN : (fuel <= n)%nat.
  Let surf := facing_surface s texture.
  Let dec := rm_decision s o table inc trn.
  Let nb := (m_nx o * m_ny o)%nat.
  Let value u := RT_matrices outer fuel s only o table n_abs inc trn texture (rm_numbers z n u) G.
  Hypothesis Ends : forall u, fractions u -> value u <> None.

  Definition dir_of (K : nat) : R * R := nth (K / nb) dirs (0, 0).
  Definition ray_at (K : nat) (v : nat -> R) : option (res ray) :=
    rm_ray outer fuel surf dec (fst (dir_of K)) (snd (dir_of K)) (rm_numbers z 0 v) K (fst (xy_of s o texture z (K mod nb))) (snd (xy_of s o texture z (K mod nb))).
  Definition dir_col (d : R * R) : nat := (row_at g (as_seen s (fst d)) (fold_phi (snd d) (m_phisym o)) - match s with Front => 0 | Rear => h end)%nat.
  Definition used (k K : nat) : bool := Nat.eqb (dir_col (dir_of K)) k.
  Definition counts_in (w : share_of) (y : ray) : R :=
    match w with IntoBin r => if leaves y && Nat.eqb (row_of s (m_phisym o) g y) r then 1 else 0 | InLayers => if leaves y then 0 else 1 end.
  Definition part (w : share_of) (k K : nat) (v : nat -> R) : R :=
    if used k K then match ray_at K v with Some (Ok y) => counts_in w y | _ => 0 end else 0.

  Lemma numbers_sound u p : fractions u -> sound_request s o table n_abs inc trn texture (rm_numbers z p u).
  Proof. intros Hu. constructor; try apply HQ. intros k j. cbn [rm_numbers z_rnd]. apply Hu. Qed.

  Lemma share_value u k w : fractions u -> (k < h)%nat -> (forall r, w = IntoBin r -> (r < 2 * h)%nat) -> (0 < cnt (used k) (length dirs * nb) 0)%nat ->
    share_in k w (value u) = / INR (cnt (used k) (length dirs * nb) 0) * rsum (map (fun K => part w k K (fun j => u (K * n + j)%nat)) (seq 0 (length dirs * nb))).
  Proof.
    intros Hu Hk Hw HC. destruct (value u) as [out|] eqn:E; [|destruct (Ends u Hu E)].
    pose proof (numbers_sound u n Hu) as HQu. assert (HIu : inclined only o (rm_numbers z n u)) by exact HI. assert (HDu : rm_directions only o (rm_numbers z n u) g = Ok dirs) by exact HD.
    pose proof (dirs_inclined s only o table n_abs inc trn texture _ HQu g h HG Hh dirs HIu HDu) as DI.
    destruct (matrices_beams outer fuel s only o table n_abs inc trn texture _ G HQu g h HG Hh dirs out HDu (fun d Hd => proj1 (DI d Hd)) E) as (beams & -> & L & HB).
    pose proof (beams_fine outer fuel s o table n_abs inc trn texture (rm_numbers z n u) g h Hh dirs beams DI L HB) as FB.
    destruct (sq_fold _ _ _ _ _ _ _ _ HQ) as [m M]. pose proof (sq_grid _ _ _ _ _ _ _ _ HQ) as V. pose proof (sq_rays _ _ _ _ _ _ _ _ HQ) as NB. fold nb in NB.
    destruct (fine_main _ m _ _ _ g h V M HG Hh s (match table with Some _ => true | None => false end) n_abs beams G FB) as (res & -> & _ & _ & F).
    cbn [share_in].
    assert (SUM : forall W, in_column (col_of (m_phisym o) g h s) k W (pairs beams) =
      rsum (map (fun K => if used k K then match ray_at K (fun j => u (K * n + j)%nat) with Some (Ok y) => W y | _ => 0 end else 0) (seq 0 (length dirs * nb)))).
    { intros W. unfold in_column. rewrite <- L. apply pairs_sum. intros i b Hb.
      destruct (nth_error dirs i) as [d|] eqn:Ed; [|apply nth_error_None in Ed; assert (nth_error beams i <> None) as Q by congruence; apply nth_error_Some in Q; lia].
      destruct (HB i d Ed) as (b' & B1 & B2 & B3 & B4 & B5). rewrite Hb in B1. injection B1 as <-. split; [exact B4|]. intros c y Hc.
      assert (CB : (c < nb)%nat) by (unfold nb; rewrite <- B4; apply nth_error_Some; congruence). destruct (B5 c CB) as (y' & Y1 & Y2 & _). rewrite Hc in Y1. injection Y1 as <-.
      assert (Q1 : ((i * nb + c) / nb)%nat = i) by (rewrite Nat.div_add_l by lia; rewrite (Nat.div_small c nb CB); lia).
      assert (Q2 : ((i * nb + c) mod nb)%nat = c) by (rewrite Nat.add_comm, Nat.mod_add by lia; apply Nat.mod_small; exact CB).
      assert (DO : dir_of (i * nb + c) = d) by (unfold dir_of; rewrite Q1; apply nth_error_nth; exact Ed).
      cbn [fst snd]. unfold used, ray_at. rewrite DO, Q2. replace (col_of (m_phisym o) g h s b) with (dir_col d) by (unfold col_of, dir_col; rewrite B2, B3; reflexivity).
      destruct (Nat.eqb (dir_col d) k); [|reflexivity].
      change (rm_ray outer fuel surf dec (fst d) (snd d) (rm_numbers z 0 (fun j => u ((i * nb + c) * n + j)%nat)) (i * nb + c) (fst (xy_of s o texture z c)) (snd (xy_of s o texture z c)))
        with (rm_ray outer fuel (facing_surface s texture) (rm_decision s o table inc trn) (fst d) (snd d) (rm_numbers (rm_numbers z n u) 0 (fun j => u ((i * nb + c) * n + j)%nat)) (i * nb + c)
          (fst (xy_of s o texture (rm_numbers z n u) c)) (snd (xy_of s o texture (rm_numbers z n u) c))).
      assert (SAME : rm_shot (rm_numbers (rm_numbers z n u) 0 (fun j => u ((i * nb + c) * n + j)%nat)) (i * nb + c) (fst (xy_of s o texture (rm_numbers z n u) c)) (snd (xy_of s o texture (rm_numbers z n u) c))
        = rm_shot (rm_numbers z n u) (i * nb + c) (fst (xy_of s o texture (rm_numbers z n u) c)) (snd (xy_of s o texture (rm_numbers z n u) c))).
      { unfold rm_shot. cbn [rm_numbers z_rnd z_xy z_hs z_seen]. f_equal. apply functional_extensionality. intros j. f_equal. lia. }
      unfold rm_ray in *. rewrite SAME. cbn [rm_numbers z_hs z_seen] in *. fold nb in Y2. rewrite Y2. reflexivity. }
    assert (CNT : n_rays_in (col_of (m_phisym o) g h s) k beams = INR (cnt (used k) (length dirs * nb) 0)).
    { unfold n_rays_in, in_column. rewrite <- cnt_sum, <- L. apply pairs_sum. intros i b Hb.
      destruct (nth_error dirs i) as [d|] eqn:Ed; [|apply nth_error_None in Ed; assert (nth_error beams i <> None) as Q by congruence; apply nth_error_Some in Q; lia].
      destruct (HB i d Ed) as (b' & B1 & B2 & B3 & B4 & B5). rewrite Hb in B1. injection B1 as <-. split; [exact B4|]. intros c y Hc.
      assert (CB : (c < nb)%nat) by (unfold nb; rewrite <- B4; apply nth_error_Some; congruence).
      assert (Q1 : ((i * nb + c) / nb)%nat = i) by (rewrite Nat.div_add_l by lia; rewrite (Nat.div_small c nb CB); lia).
      assert (DO : dir_of (i * nb + c) = d) by (unfold dir_of; rewrite Q1; apply nth_error_nth; exact Ed).
      cbn [fst snd]. unfold used. rewrite DO. replace (col_of (m_phisym o) g h s b) with (dir_col d) by (unfold col_of, dir_col; rewrite B2, B3; reflexivity). reflexivity. }
    assert (NP : 0 < n_rays_in (col_of (m_phisym o) g h s) k beams) by (rewrite CNT; apply lt_0_INR; exact HC).
    destruct (F k Hk NP) as (F1 & F2 & _).
    destruct w as [r|].
    - rewrite (F1 r (Hw r eq_refl)), SUM, CNT. unfold part. cbn [counts_in]. unfold Rdiv. apply Rmult_comm.
    - rewrite F2. unfold n_absorbed_in. rewrite SUM, CNT. unfold part. cbn [counts_in]. unfold Rdiv. apply Rmult_comm.
  Qed.

  Lemma part_tree w k K : tree n (part w k K).
  Proof.
    unfold part. destruct (used k K); [|apply tree_const]. apply (tree_map (fun a : option (res ray) => match a with Some (Ok y) => counts_in w y | _ => 0 end)).
    apply (tree_more fuel); [exact HN|]. unfold ray_at, rm_ray. cbn [rm_numbers z_hs z_seen].
    pose proof (launch_tree outer fuel (lmax (zs_of (su_pts surf))) (refreshed surf (z_hs z) (z_seen z K)) dec (fst (dir_of K)) (snd (dir_of K))
      (rm_shot z K (fst (xy_of s o texture z (K mod nb))) (snd (xy_of s o texture z (K mod nb)))) (chosen_by_comparison _ _ _ _)) as T.
    revert T. apply tree_ext. intros v _. f_equal. unfold rm_shot. cbn [sh_x sh_y sh_xy sh_h rm_numbers z_rnd z_xy z_hs z_seen]. f_equal.
    apply functional_extensionality. intros j. rewrite Nat.mul_0_r. reflexivity.
  Qed.
  Lemma part_range w k K v : 0 <= part w k K v <= 1.
  Proof. unfold part. destruct (used k K); [|lra]. destruct (ray_at K v) as [[y|]|]; try lra. destruct w; cbn [counts_in]; [destruct (leaves y && _)|destruct (leaves y)]; lra. Qed.

  (* the average of an entry is that of the parts *)
  Lemma share_average k w mk : (k < h)%nat -> (forall r, w = IntoBin r -> (r < 2 * h)%nat) -> (0 < cnt (used k) (length dirs * nb) 0)%nat ->
    (forall K, (K < length dirs * nb)%nat -> mean n (part w k K) (mk K)) ->
    let N := cnt (used k) (length dirs * nb) 0 in let m := / INR N * rsum (map mk (seq 0 (length dirs * nb))) in
    mean (length dirs * nb * n) (fun u => share_in k w (value u)) m /\
    forall eps, 0 < eps -> rarely_off (length dirs * nb * n) (fun u => share_in k w (value u)) m eps (1 / (4 * INR N * eps ^ 2)).
  Proof.
    intros Hk Hw HC HM N m. destruct (off_used (used k) n (length dirs * nb) (part w k) mk HC (part_tree w k) HM (fun K v _ => part_range w k K v)) as [M1 M2].
    { intros K v H. unfold part. rewrite H. reflexivity. }
    assert (EV : forall u, fractions u -> / INR N * rsum (map (fun K => part w k K (fun j => u (K * n + j)%nat)) (seq 0 (length dirs * nb))) = share_in k w (value u)).
    { intros u Hu. symmetry. apply share_value; auto. }
    split; [exact (mean_ext _ _ _ _ EV M1)|]. intros eps He. destruct (M2 eps He) as (p & P1 & P2). exists p. split; [|tauto].
    refine (mean_ext _ _ _ _ _ P1). intros u Hu. cbn beta. fold N. rewrite (EV u Hu). reflexivity.
  Qed.
End Columns.

(* ---------- directions ---------- *)

Lemma repeats_length {A} (l : list A) q : length (concat (repeat l q)) = (q * length l)%nat.
Proof. induction q as [|q IH]; [reflexivity|]. cbn [repeat concat]. rewrite app_length, IH. reflexivity. Qed.

Lemma NoDup_app_intro {A} (l l' : list A) : NoDup l -> NoDup l' -> (forall x, In x l -> ~ In x l') -> NoDup (l ++ l').
Proof.
  induction 1 as [|a l NI ND IH]; intros H D; [exact H|]. cbn [app]. constructor.
  - rewrite in_app_iff. intros [Q|Q]; [tauto|]. exact (D a (or_introl eq_refl) Q).
  - apply IH; [exact H|]. intros x Hx. apply D. now right.
Qed.

Section Directions.
  Variables (s : side) (only : bool) (o : rm_options) (table : option (Z -> R -> table_entry)) (n_abs : nat) (inc trn : material)
    (texture : rtsurf * rtsurf) (z : rm_draws) (g : grid) (h : nat) (dirs : list (R * R)).
  Hypothesis HQ : sound_request s o table n_abs inc trn texture z.
  Hypothesis HG : angular_grid o g.
  Hypothesis Hh : length (g_av g) = (2 * h)%nat.
  Hypothesis HI : inclined only o z.
  Hypothesis HD : rm_directions only o z g = Ok dirs.
  Let nb := (m_nx o * m_ny o)%nat.

  Lemma dirs_out : length dirs = how_many_directions only o g /\
    forall i theta phi, goes_out only o z g i theta phi <-> nth_error dirs i = Some (theta, phi).
  Proof.
    pose proof (h_positive s o table n_abs inc trn texture z HQ g h HG Hh) as HP. pose proof (half_len g h Hh) as HL.
    unfold rm_directions, how_many_directions, goes_out, inclined in *. unfold how_many_directions. rewrite HL. destruct only.
    - destruct HI as (p & Ep & _). unfold incidence_directions in HD. cbv zeta in HD. rewrite Ep in HD.
      assert (L : length (firstn (length (g_av g) / 2) (g_av g)) = h) by (rewrite HL, firstn_length; lia). rewrite L in HD. injection HD as <-.
      rewrite repeat_length. split; [reflexivity|]. intros i theta phi. fold (nudged (m_theta o)) (nudged p). split.
      + intros (Hi & p' & Ep' & -> & ->). rewrite Ep in Ep'. injection Ep' as <-. apply nth_error_repeat. exact Hi.
      + intros E. assert (Hi : (i < Z.to_nat (Zceil (INR (n_angles_of (m_nrays o) (m_nx o) (m_ny o)) / INR h)))%nat).
        { match type of E with nth_error ?l i = _ => assert (Q : nth_error l i <> None) by congruence end. apply nth_error_Some in Q. rewrite repeat_length in Q. exact Q. }
        rewrite nth_error_repeat in E by exact Hi. injection E as <- <-. split; [exact Hi|]. exists p. auto.
    - injection HD as <-. destruct (m_random_angles o).
      + rewrite map_length, seq_length. split; [reflexivity|]. intros i theta phi. rewrite nth_error_map. split.
        * intros (Hi & -> & ->). rewrite (nth_error_nth' _ 0%nat) by (rewrite seq_length; exact Hi). rewrite seq_nth by exact Hi. reflexivity.
        * destruct (nth_error (seq 0 _) i) as [j|] eqn:Ej; [|discriminate]. intros E. injection E as <- <-.
          assert (Hi : (i < n_angles_of (m_nrays o) (m_nx o) (m_ny o))%nat) by (rewrite <- (seq_length (n_angles_of (m_nrays o) (m_nx o) (m_ny o)) 0); apply nth_error_Some; congruence).
          rewrite (nth_error_nth' _ 0%nat) in Ej by (rewrite seq_length; exact Hi). rewrite seq_nth in Ej by exact Hi. injection Ej as <-. auto.
      + assert (L : length (regular_directions g (n_angles_of (m_nrays o) (m_nx o) (m_ny o))) = n_angles_of (m_nrays o) (m_nx o) (m_ny o)).
        { unfold regular_directions, tile. rewrite firstn_length, HL. assert (Q : length (firstn h (g_av g)) = h) by (rewrite firstn_length; lia). rewrite Q.
          match goal with |- Nat.min _ (length ?l) = _ => assert (n_angles_of (m_nrays o) (m_nx o) (m_ny o) <= length l)%nat end; [|lia].
          rewrite repeats_length, map_length, Q. apply ceil_enough. exact HP. }
        split; [exact L|]. intros i theta phi. split.
        * intros (Hi & r & Er & -> & ->). rewrite (regular_nth g h _ i Hh HP Hi), Er. reflexivity.
        * intros E. assert (Hi : (i < n_angles_of (m_nrays o) (m_nx o) (m_ny o))%nat) by (rewrite <- L; apply nth_error_Some; congruence). split; [exact Hi|].
          rewrite (regular_nth g h _ i Hh HP Hi) in E. destruct (nth_error (g_av g) (i mod h)) as [r|]; [|discriminate]. cbn [option_map] in E. injection E as <- <-. exists r. auto.
  Qed.

  Lemma dir_in_column k i theta phi : (k < h)%nat -> nth_error dirs i = Some (theta, phi) -> (in_its_column s (m_phisym o) g k theta phi <-> dir_col s o g h (theta, phi) = k).
  Proof.
    intros Hk Hi. destruct (dirs_inclined s only o table n_abs inc trn texture z HQ g h HG Hh dirs HI HD _ (nth_error_In _ _ Hi)) as [T F]. cbn [fst snd] in T, F.
    pose proof (sq_grid _ _ _ _ _ _ _ _ HQ) as V. pose proof (as_seen_in s theta T) as T'.
    assert (P : 0 < fold_phi phi (m_phisym o) <= m_phisym o). { pose proof (fold_phi_range phi (m_phisym o) ltac:(destruct V; tauto)). lra. }
    unfold in_its_column. rewrite (half_len g h Hh), (row_at_bin _ _ _ _ g h V HG Hh _ _ _ T' P). unfold dir_col. cbn [fst snd].
    set (rr := row_at g (as_seen s theta) (fold_phi phi (m_phisym o))). split.
    - intros [_ E]. rewrite <- E. apply column_row_back. exact Hk.
    - intros E. split; [exact Hk|]. assert (Hr : match s with Front => (rr < h)%nat | Rear => (h <= rr)%nat end); [|clearbody rr; destruct s; cbn [column_row]; lia].
      pose proof (proj2 (row_at_bin _ _ _ _ g h V HG Hh _ _ rr T' P) eq_refl) as B. pose proof (bin_half _ _ _ _ g V HG h rr _ _ Hh B) as BH.
      pose proof PI_RGT_0. clearbody rr. clear - BH T. destruct s; cbn [as_seen] in BH; [apply BH; lra|]. apply Nat.nlt_ge. intros L. apply BH in L. lra.
  Qed.

  (* as many rays as were sent from the directions of l *)
  Lemma cnt_directions k l : (k < h)%nat -> directions_in only s o z g k l -> (0 < length l * nb <= cnt (used s o g h dirs k) (length dirs * nb) 0)%nat.
  Proof.
    intros Hk (ND & NE & HL). pose proof (sq_rays _ _ _ _ _ _ _ _ HQ) as NB. fold nb in NB. split; [destruct l; [congruence|cbn [length]; nia]|].
    assert (LL : forall m : list nat, length (flat_map (fun i => map (fun c => (i * nb + c)%nat) (seq 0 nb)) m) = (length m * nb)%nat).
    { induction m as [|i m IH]; [reflexivity|]. cbn [flat_map length Nat.mul]. rewrite app_length, map_length, seq_length, IH. reflexivity. }
    rewrite <- LL. apply cnt_enough.
    - clear - ND NB. induction ND as [|i l NI ND IH]; [constructor|]. cbn [flat_map]. apply NoDup_app_intro; [|exact IH|].
      + apply FinFun.Injective_map_NoDup; [intros a b; lia|apply seq_NoDup].
      + intros x H1 H2. apply in_map_iff in H1. destruct H1 as (c & <- & Hc). apply in_seq in Hc. apply in_flat_map in H2. destruct H2 as (j & Hj & H2).
        apply in_map_iff in H2. destruct H2 as (d & E & Hd). apply in_seq in Hd. assert (i = j) by nia. subst j. tauto.
    - intros K H. apply in_flat_map in H. destruct H as (i & Hi & H). apply in_map_iff in H. destruct H as (c & <- & Hc). apply in_seq in Hc.
      destruct (HL i Hi) as (theta & phi & GO & IC). destruct dirs_out as [_ DO]. apply DO in GO.
      assert (LT : (i < length dirs)%nat) by (apply nth_error_Some; congruence). split; [nia|].
      unfold used, dir_of. fold nb. assert (Q1 : ((i * nb + c) / nb)%nat = i) by (rewrite Nat.div_add_l by lia; rewrite (Nat.div_small c nb) by lia; lia).
      rewrite Q1, (nth_error_nth _ _ _ GO). apply Nat.eqb_eq. apply (dir_in_column k i theta phi Hk GO). exact IC.
  Qed.
End Directions.

Lemma fewer_rays n f m eps a b : 0 < INR a -> INR a <= INR b -> 0 < eps -> rarely_off n f m eps (1 / (4 * INR b * eps ^ 2)) -> rarely_off n f m eps (1 / (4 * INR a * eps ^ 2)).
Proof.
  intros A B E (p & P1 & P2). exists p. split; [exact P1|]. apply Rle_trans with (1 := P2). assert (0 < eps ^ 2) by (apply pow_lt; lra).
  unfold Rdiv. rewrite !Rmult_1_l. apply Rinv_le_contravar; [apply Rmult_lt_0_compat; lra|]. apply Rmult_le_compat_r; lra.
Qed.

(* ---------- matrices ---------- *)

Section Close.
  Variables (outer fuel : nat) (s : side) (only : bool) (o : rm_options) (table : option (Z -> R -> table_entry)) (n_abs : nat) (inc trn : material)
    (texture : rtsurf * rtsurf) (z : rm_draws) (G : garbage) (g : grid) (n : nat).
  Hypothesis HQ : sound_request s o table n_abs inc trn texture z.
  Hypothesis HG : angular_grid o g.
  Hypothesis HI : inclined only o z.
  Hypothesis HN : (fuel <= n)%nat.
  Let value u := RT_matrices outer fuel s only o table n_abs inc trn texture (rm_numbers z n u) G.
  Hypothesis Ends : forall u, fractions u -> value u <> None.

  Lemma share_close k l w : (k < length (g_av g) / 2)%nat -> (forall r, w = IntoBin r -> (r < length (g_av g))%nat) -> directions_in only s o z g k l ->
    let N := (how_many_directions only o g * (m_nx o * m_ny o) * n)%nat in
    exists m, mean N (fun u => share_in k w (value u)) m /\
      forall eps, 0 < eps -> rarely_off N (fun u => share_in k w (value u)) m eps (1 / (4 * INR (length l * (m_nx o * m_ny o)) * eps ^ 2)).
  Proof.
    intros Hk Hw HL N. destruct (proj1 (C01_rows _ _ _ _ _ (sq_grid _ _ _ _ _ _ _ _ HQ) HG)) as [h [Hh _]]. rewrite (half_len g h Hh) in Hk. rewrite Hh in Hw.
    destruct (dirs_given only o z g HI) as [dirs HD]. destruct (dirs_out s only o table n_abs inc trn texture z g h dirs HQ HG Hh HI HD) as [LD _].
    destruct (cnt_directions s only o table n_abs inc trn texture z g h dirs HQ HG Hh HI HD k l Hk HL) as [C1 C2].
    destruct (choose_means n (part outer fuel s o table inc trn texture z g h dirs w k) (part_tree outer fuel s o table inc trn texture z g h n dirs HN w k)
      (length dirs * (m_nx o * m_ny o))) as [mk HM].
    destruct (share_average outer fuel s only o table n_abs inc trn texture z G g h n dirs HQ HG Hh HI HD HN Ends k w mk Hk Hw ltac:(lia) HM) as [M1 M2].
    unfold N. rewrite <- LD. eexists. split; [exact M1|]. intros eps He. refine (fewer_rays _ _ _ eps _ _ _ _ He (M2 eps He)); [apply lt_0_INR; lia|apply le_INR; exact C2].
  Qed.
End Close.

(* the default directions: as many for each column *)
Section Default.
  Variables (s : side) (o : rm_options) (table : option (Z -> R -> table_entry)) (n_abs : nat) (inc trn : material)
    (texture : rtsurf * rtsurf) (z : rm_draws) (g : grid) (h : nat).
  Hypothesis HQ : sound_request s o table n_abs inc trn texture z.
  Hypothesis HG : angular_grid o g.
  Hypothesis Hh : length (g_av g) = (2 * h)%nat.
  Hypothesis HR : m_random_angles o = false.

  Lemma default_list k q : (k < h)%nat -> (0 < q)%nat -> (q * h * (m_nx o * m_ny o) <= m_nrays o)%nat ->
    exists l, directions_in false s o z g k l /\ length l = q.
  Proof.
    intros Hk Hq HN. destruct (sq_fold _ _ _ _ _ _ _ _ HQ) as [m M]. pose proof (sq_rays _ _ _ _ _ _ _ _ HQ) as NB.
    destruct (column_source _ m _ _ _ g h s k (sq_grid _ _ _ _ _ _ _ _ HQ) M HG Hh Hk) as (k' & r & Hk' & Hr & B & _ & _ & F).
    pose proof (n_angles_enough (m_nrays o) (m_nx o) (m_ny o) (q * h) ltac:(lia) HN) as NA.
    exists (map (fun j => (k' + j * h)%nat) (seq 0 q)). split; [|rewrite map_length, seq_length; reflexivity]. split; [|split].
    - apply FinFun.Injective_map_NoDup; [intros a b E; nia|apply seq_NoDup].
    - destruct q; [lia|discriminate].
    - intros i Hi. apply in_map_iff in Hi. destruct Hi as (j & <- & Hj). apply in_seq in Hj. exists (a_theta r), (a_phi r). split.
      + unfold goes_out, how_many_directions. rewrite HR, (half_len g h Hh). split; [nia|]. exists r. rewrite Nat.mod_add by lia. rewrite Nat.mod_small by exact Hk'. auto.
      + unfold in_its_column. rewrite (half_len g h Hh), F. auto.
  Qed.

  (* light from the direction of its row only *)
  Lemma default_direction m k r i theta phi : m_fold m (m_phisym o) -> Nat.even m = true -> (k < h)%nat -> nth_error (g_av g) (column_row s h k) = Some r ->
    goes_out false o z g i theta phi -> in_its_column s (m_phisym o) g k theta phi -> theta = as_seen s (a_theta r) /\ phi = a_phi r.
  Proof.
    intros M He Hk Hr (Hi & GO) [_ IC]. rewrite HR in GO. destruct GO as (r0 & Hr0 & -> & ->). rewrite (half_len g h Hh) in Hr0, IC. pose proof (sq_grid _ _ _ _ _ _ _ _ HQ) as V.
    assert (H0 : (i mod h < h)%nat) by (apply Nat.mod_upper_bound; lia).
    destruct (seen_row _ _ _ _ g h m V HG Hh M He s _ r0 H0 Hr0) as (k' & r' & Hr' & T' & P').
    assert (L' : (k' < 2 * h)%nat) by (rewrite <- Hh; apply nth_error_Some; congruence).
    destruct (C01_rows _ _ _ _ _ V HG) as [_ [R1 _]]. destruct (R1 k' ltac:(lia)) as (a & b & Hab).
    destruct (row_inside _ m _ _ _ g h V M HG Hh k' r' a b Hr' Hab) as (A1 & A2 & A3 & A4). rewrite <- T', <- P', A2 in IC.
    assert (E : k' = column_row s h k).
    { assert (P : 0 < a_phi r' <= m_phisym o). { split; [exact A3|]. rewrite <- A2. pose proof (fold_phi_range (a_phi r') (m_phisym o) ltac:(destruct V; tauto)). lra. }
      rewrite (proj1 (row_at_bin _ _ _ _ g h V HG Hh (a_theta r') _ k' ltac:(lra) P) A4). symmetry. apply (row_at_bin _ _ _ _ g h V HG Hh (a_theta r') _ _ ltac:(lra) P). exact IC. }
    subst k'. rewrite Hr in Hr'. injection Hr' as <-. rewrite P', T'. split; [|reflexivity]. clear. destruct s; cbn [as_seen]; lra.
  Qed.
End Default.
