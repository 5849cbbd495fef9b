(* tmm_structure.calculate, TMM from the rear, lookup tables. *)
From Coq Require Import Reals List ZArith Bool Lia Lra String.
From Verif Require Import Base Lib Model_Angles Spec_Angles Model_Ideal Model_TMM Spec_TMM Proof_TMM.
Import ListNotations.
Local Notation length := List.length.
Open Scope R_scope.

(* ---------- lists ---------- *)

Lemma inner_length {A} (l : list A) : length (inner l) = (length l - 2)%nat.
Proof.
  unfold inner. destruct l as [|x l]; [reflexivity|]. cbn [tl length].
  destruct l as [|y l]; [reflexivity|]. rewrite removelast_firstn_len, firstn_length. simpl. lia.
Qed.

Lemma inner_nth {A} (l : list A) i d : (S (S i) < length l)%nat -> nth i (inner l) d = nth (S i) l d.
Proof.
  unfold inner. destruct l as [|x l]; intros H; [simpl in H; lia|]. cbn [tl length nth] in *.
  rewrite removelast_firstn_len. revert i H. induction l as [|y l IH]; intros i H; [simpl in H; lia|].
  destruct l as [|z l]; [simpl in H; lia|]. destruct i; [reflexivity|]. cbn [length Nat.pred firstn nth] in *.
  apply IH. lia.
Qed.

Lemma inner_map {A B} (f : A -> B) l : inner (map f l) = map f (inner l).
Proof.
  unfold inner. destruct l as [|x l]; [reflexivity|]. cbn [tl map]. induction l as [|y l IH]; [reflexivity|].
  destruct l; [reflexivity|]. cbn [map removelast] in *. rewrite <- IH. reflexivity.
Qed.

Lemma inner_in {A} (l : list A) x : In x (inner l) -> In x l.
Proof.
  unfold inner. destruct l as [|y l]; [auto|]. cbn [tl]. intros H. right.
  induction l as [|z l IH]; [auto|]. destruct l; [destruct H|]. cbn [removelast] in H. destruct H as [->|H]; [left; auto|].
  right. apply IH. exact H.
Qed.

Lemma map2_length {A B C} (f : A -> B -> C) l m : length l = length m -> length (map2 f l m) = length l.
Proof. revert m. induction l; intros [|y m] H; simpl in *; try lia. rewrite IHl; lia. Qed.

Lemma map2_app {A B C} (f : A -> B -> C) l m l' m' : length l = length m ->
  map2 f (l ++ l') (m ++ m') = map2 f l m ++ map2 f l' m'.
Proof. revert m. induction l; intros [|y m] H; simpl in *; try lia; auto. rewrite IHl; auto. Qed.

Lemma map2_rev {A B C} (f : A -> B -> C) l m : length l = length m -> map2 f (rev l) (rev m) = rev (map2 f l m).
Proof.
  revert m. induction l; intros [|y m] H; simpl in *; try lia; auto.
  rewrite map2_app by (rewrite !rev_length; lia). rewrite IHl by lia. reflexivity.
Qed.

Lemma rsum_map2_half l m : length l = length m -> rsum (map2 half_sum l m) = half_sum (rsum l) (rsum m).
Proof.
  unfold half_sum. revert m. induction l; intros [|y m] H; simpl in *; try lia; [lra|]. rewrite IHl by lia. lra.
Qed.

Lemma means_map2 l m : length l = length m -> means_of (map2 half_sum l m) l m.
Proof.
  intros H. split; [apply map2_length; auto|]. split; [rewrite map2_length; auto|]. unfold mean_of.
  revert m H. induction l; intros [|y m] H i; simpl in *; try lia; destruct i; unfold half_sum; try lra.
  apply IHl. lia.
Qed.

Lemma clip_nonneg x : 0 <= clip x.
Proof. rewrite clip_max. apply Rmax_l. Qed.
Lemma clip_id x : 0 <= x -> clip x = x.
Proof. intros. rewrite clip_max. apply Rmax_right; auto. Qed.
Lemma map_clip_id l : (forall x, In x l -> 0 <= x) -> map clip l = l.
Proof. intros H. rewrite <- (map_id l) at 2. apply map_ext_in. intros. apply clip_id. auto. Qed.

Lemma rsum_zero_all l : (forall x, In x l -> 0 <= x) -> rsum l = 0 -> forall x, In x l -> x = 0.
Proof.
  induction l; intros H E x Hx; [destruct Hx|]. cbn [rsum] in E.
  assert (0 <= a) by (apply H; left; auto).
  assert (0 <= rsum l) by (apply rsum_nonneg; intros; apply H; right; auto).
  destruct Hx as [->|Hx]; [lra|]. apply IHl; auto; [intros; apply H; right; auto|lra].
Qed.

Lemma rsum_scale a b l : rsum (map (fun x => x * a / b) l) = rsum l * a / b.
Proof. induction l; cbn [map rsum]; [unfold Rdiv; ring|]. rewrite IHl. unfold Rdiv. ring. Qed.

(* ---------- C49 ---------- *)

Lemma calc_inc_layers s :
  (forall x, In x (t_Al (calc_inc s)) -> 0 <= x) /\
  t_A (calc_inc s) = Rmax 0 (1 - s_R s - s_T s) /\
  ((exists x, In x (inner (s_abs s)) /\ 0 < x) -> rsum (t_Al (calc_inc s)) = t_A (calc_inc s)) /\
  ((forall x, In x (inner (s_abs s)) -> x <= 0) -> forall x, In x (t_Al (calc_inc s)) -> x = 0).
Proof.
  unfold calc_inc. cbn [t_Al t_A]. rewrite inner_map. set (a := map clip (inner (s_abs s))).
  set (A := clip (1 - s_R s - s_T s)).
  assert (Ha : forall x, In x a -> 0 <= x).
  { intros x Hx. apply in_map_iff in Hx. destruct Hx as [y [<- _]]. apply clip_nonneg. }
  assert (HS : 0 <= rsum a) by (apply rsum_nonneg; auto).
  split; [|split; [|split]].
  - destruct (Reqb (rsum a) 0) eqn:E; auto. apply Reqb_false in E. intros x Hx.
    apply in_map_iff in Hx. destruct Hx as [y [<- Hy]].
    apply Rmult_le_pos; [apply Rmult_le_pos; [auto|apply clip_nonneg]|]. left. apply Rinv_0_lt_compat. lra.
  - apply clip_max.
  - intros [x [Hx Hpos]]. destruct (Reqb (rsum a) 0) eqn:E.
    + apply Reqb_true in E. exfalso.
      assert (clip x = 0) by (apply (rsum_zero_all a Ha E); apply in_map; auto). rewrite clip_id in H by lra. lra.
    + apply Reqb_false in E. rewrite rsum_scale. field. auto.
  - intros Hall. assert (Z : forall x, In x a -> x = 0).
    { intros x Hx. apply in_map_iff in Hx. destruct Hx as [y [<- Hy]]. rewrite clip_max. apply Rmax_left. auto. }
    destruct (Reqb (rsum a) 0) eqn:E; auto. apply Reqb_false in E. exfalso. apply E.
    clear -Z. induction a; [reflexivity|]. cbn [rsum]. rewrite (Z a) by (left; auto). rewrite IHa; [lra|].
    intros; apply Z; right; auto.
Qed.

Lemma calc_inc_balanced n s : balanced n s -> t_Al (calc_inc s) = inner (s_abs s) /\ t_A (calc_inc s) = 1 - s_R s - s_T s /\
  0 <= 1 - s_R s - s_T s.
Proof.
  intros [L [Hn Hb]].
  assert (Hi : forall x, In x (inner (s_abs s)) -> 0 <= x) by (intros; apply Hn, inner_in; auto).
  assert (HA : 0 <= 1 - s_R s - s_T s) by (rewrite <- Hb; apply rsum_nonneg; auto).
  unfold calc_inc. cbn [t_Al t_A]. rewrite clip_id by auto. rewrite map_clip_id by auto. split; auto.
  destruct (Reqb (rsum (inner (s_abs s))) 0) eqn:E; auto. apply Reqb_false in E.
  rewrite <- Hb. rewrite <- (map_id (inner (s_abs s))) at 2. apply map_ext. intros. field. auto.
Qed.

(* ---------- C48 ---------- *)

Lemma u_not_sp : in_sp "u" = false.
Proof. reflexivity. Qed.
Lemma s_sp : in_sp "s" = true.
Proof. reflexivity. Qed.
Lemma p_sp : in_sp "p" = true.
Proof. reflexivity. Qed.

Section Calc.
  Variables (M : Type) (SV : solver M) (mem : list R) (nobr : bool) (st : ostack M) (o : topts) (cl : list bool) (s p : sol).
  Hypothesis Hcl : coh_for nobr st o = Ok cl.
  Hypothesis Hs : answers SV st (p_coherent o) cl (p_theta o) "s" s.
  Hypothesis Hp : answers SV st (p_coherent o) cl (p_theta o) "p" p.

  Lemma calc_s : calculate SV mem nobr st (with_pol o "s") = Ok (if p_coherent o then calc_coh s else calc_inc s).
  Proof.
    unfold calculate. replace (coh_for nobr st (with_pol o "s")) with (coh_for nobr st o) by reflexivity.
    rewrite Hcl. cbn [rbind]. cbn [with_pol p_pol p_coherent]. rewrite s_sp. unfold solve, answers in *.
    cbn [with_pol p_pol p_coherent p_theta]. rewrite Hs. reflexivity.
  Qed.
  Lemma calc_p : calculate SV mem nobr st (with_pol o "p") = Ok (if p_coherent o then calc_coh p else calc_inc p).
  Proof.
    unfold calculate. replace (coh_for nobr st (with_pol o "p")) with (coh_for nobr st o) by reflexivity.
    rewrite Hcl. cbn [rbind]. cbn [with_pol p_pol p_coherent]. rewrite p_sp. unfold solve, answers in *.
    cbn [with_pol p_pol p_coherent p_theta]. rewrite Hp. reflexivity.
  Qed.
  Lemma calc_u : calculate SV mem nobr st (with_pol o "u") =
    Ok (if p_coherent o then calc_u_coh p s else calc_u_inc mem p s).
  Proof.
    unfold calculate. replace (coh_for nobr st (with_pol o "u")) with (coh_for nobr st o) by reflexivity.
    rewrite Hcl. cbn [rbind]. cbn [with_pol p_pol p_coherent]. rewrite u_not_sp. unfold solve, answers in *.
    cbn [with_pol p_pol p_coherent p_theta]. rewrite Hs, Hp. reflexivity.
  Qed.

  Lemma means_sym x a b : means_of x a b -> means_of x b a.
  Proof. intros [H1 [H2 H3]]. split; auto. split; auto. intros i. specialize (H3 i). unfold mean_of in *. lra. Qed.

  Lemma u_coherent : p_coherent o = true -> length (s_abs s) = length (s_abs p) ->
    exists u us up, calculate SV mem nobr st (with_pol o "u") = Ok u /\
      calculate SV mem nobr st (with_pol o "s") = Ok us /\ calculate SV mem nobr st (with_pol o "p") = Ok up /\
      mean_of (t_R u) (t_R us) (t_R up) /\ mean_of (t_T u) (t_T us) (t_T up) /\ mean_of (t_A u) (t_A us) (t_A up) /\
      means_of (t_Al u) (t_Al us) (t_Al up).
  Proof.
    intros Hc HL. rewrite calc_u, calc_s, calc_p, Hc. do 3 eexists. split; [reflexivity|]. split; [reflexivity|].
    split; [reflexivity|]. unfold calc_u_coh, calc_coh, mean_of. cbn [t_R t_T t_A t_Al].
    split; [unfold half_sum; lra|]. split; [unfold half_sum; lra|]. split; [unfold half_sum; lra|]. apply means_sym, means_map2. rewrite !inner_length. lia.
  Qed.

  Lemma u_incoherent : p_coherent o = false ->
    exists u us up, calculate SV mem nobr st (with_pol o "u") = Ok u /\
      calculate SV mem nobr st (with_pol o "s") = Ok us /\ calculate SV mem nobr st (with_pol o "p") = Ok up /\
      mean_of (t_R u) (t_R us) (t_R up) /\ mean_of (t_T u) (t_T us) (t_T up) /\
      (forall n, balanced n s -> balanced n p ->
         mean_of (t_A u) (t_A us) (t_A up) /\
         ((exists x, (In x (inner (s_abs s)) \/ In x (inner (s_abs p))) /\ 0 < x) ->
            means_of (t_Al u) (t_Al us) (t_Al up) /\ (forall x, In x (t_Al u) -> 0 <= x) /\ rsum (t_Al u) = t_A u)).
  Proof.
    intros Hc. rewrite calc_u, calc_s, calc_p, Hc. do 3 eexists. split; [reflexivity|]. split; [reflexivity|].
    split; [reflexivity|]. split; [unfold calc_u_inc, calc_inc, mean_of, half_sum; cbn [t_R]; lra|].
    split; [unfold calc_u_inc, calc_inc, mean_of, half_sum; cbn [t_T]; lra|].
    intros n Bs Bp. destruct (calc_inc_balanced n s Bs) as [S1 [S2 S3]]. destruct (calc_inc_balanced n p Bp) as [P1 [P2 P3]].
    rewrite S1, S2, P1, P2. unfold calc_u_inc. cbn [t_A t_Al].
    split; [unfold mean_of, half_sum; lra|].
    intros [x [Hx Hpos]]. destruct Bs as [Ls [Ns Es]]. destruct Bp as [Lp [Np Ep]].
    assert (HL : length (inner (s_abs p)) = length (inner (s_abs s))) by (rewrite !inner_length; lia).
    rewrite rsum_map2_half by auto.
    assert (Hi : forall x, In x (inner (s_abs s)) -> 0 <= x) by (intros; apply Ns, inner_in; auto).
    assert (Hj : forall x, In x (inner (s_abs p)) -> 0 <= x) by (intros; apply Np, inner_in; auto).
    assert (Ht : 0 < half_sum (rsum (inner (s_abs p))) (rsum (inner (s_abs s)))).
    { unfold half_sum. rewrite Es, Ep.
      destruct (Req_dec (rsum (inner (s_abs s))) 0) as [E1|E1], (Req_dec (rsum (inner (s_abs p))) 0) as [E2|E2]; try lra.
      pose proof (rsum_zero_all _ Hi E1). pose proof (rsum_zero_all _ Hj E2). destruct Hx as [Hx|Hx]; [apply H in Hx|apply H0 in Hx]; lra. }
    rewrite (proj2 (Reqb_false _ _)) by lra.
    set (S := half_sum (rsum (inner (s_abs p))) (rsum (inner (s_abs s)))) in *.
    assert (EA : 1 - half_sum (s_R p) (s_R s) - half_sum (s_T p) (s_T s) = S).
    { unfold S. rewrite Es, Ep. unfold half_sum. lra. }
    rewrite EA.
    assert (Eid : map (fun y => y * S / S) (map2 half_sum (inner (s_abs p)) (inner (s_abs s))) =
                  map2 half_sum (inner (s_abs p)) (inner (s_abs s))).
    { rewrite <- (map_id (map2 _ _ _)) at 2. apply map_ext. intros. field. lra. }
    rewrite Eid. split; [apply means_sym, means_map2; auto|]. split.
    - clear -Hi Hj. revert Hi Hj. generalize (inner (s_abs s)) as l, (inner (s_abs p)) as m. intros l m.
      revert l. induction m; intros [|y l] Hi Hj z Hz; simpl in Hz; try destruct Hz as [<-|Hz]; try contradiction.
      + unfold half_sum. assert (0 <= a) by (apply Hj; left; auto). assert (0 <= y) by (apply Hi; left; auto). lra.
      + apply (IHm l); auto; intros; [apply Hi|apply Hj]; right; auto.
    - rewrite rsum_map2_half by auto. reflexivity.
  Qed.

  Lemma u_coh_coefs layers : p_coherent o = true ->
    (forall l, In l layers -> c_a1 (s_coef s l) = c_a1 (s_coef p l) /\ c_a3 (s_coef s l) = c_a3 (s_coef p l)) ->
    exists cu cs cp, profile_coeff SV nobr st (with_pol o "u") layers = Ok cu /\
      profile_coeff SV nobr st (with_pol o "s") layers = Ok cs /\
      profile_coeff SV nobr st (with_pol o "p") layers = Ok cp /\
      length cu = length layers /\ length cs = length layers /\ length cp = length layers /\
      forall i d, (i < length layers)%nat -> coef_means (nth i cu d) (nth i cs d) (nth i cp d).
  Proof.
    intros Hc Ha. unfold profile_coeff, with_pol, solve, answers, coh_for in *. cbn [p_pol p_coherent p_theta p_coh] in *.
    rewrite u_not_sp, s_sp, p_sp. rewrite Hc in *. cbn [rbind]. rewrite Hs, Hp. cbn [rbind].
    do 3 eexists. split; [reflexivity|]. split; [reflexivity|]. split; [reflexivity|].
    rewrite !map_length. split; auto. split; auto. split; auto. intros i d Hi.
    rewrite !nth_map_lt with (da := 0%nat) by auto.
    destruct (Ha (nth i layers 0%nat) ltac:(apply nth_In; auto)) as [A1 A3].
    unfold coef_means, coef_half_sum, mean_of, half_sum. cbn [c_A1 c_A2 c_A3r c_A3i c_a1 c_a3]. lra.
  Qed.

  Lemma u_profile dist : (forall z, In z dist -> 0 <= s_prof s z /\ 0 <= s_prof p z) ->
    exists u us up, profile_at SV nobr st (with_pol o "u") dist = Ok u /\
      profile_at SV nobr st (with_pol o "s") dist = Ok us /\
      profile_at SV nobr st (with_pol o "p") dist = Ok up /\ means_of u us up.
  Proof.
    intros Hn. unfold profile_at.
    replace (coh_for nobr st (with_pol o "u")) with (coh_for nobr st o) by reflexivity.
    replace (coh_for nobr st (with_pol o "s")) with (coh_for nobr st o) by reflexivity.
    replace (coh_for nobr st (with_pol o "p")) with (coh_for nobr st o) by reflexivity.
    rewrite Hcl. unfold solve, answers in *. cbn [with_pol p_pol p_coherent p_theta rbind].
    rewrite u_not_sp, s_sp, p_sp. rewrite Hs, Hp. cbn [rbind].
    do 3 eexists. split; [reflexivity|]. split; [reflexivity|]. split; [reflexivity|].
    split; [rewrite !map_length; auto|]. split; [rewrite !map_length; auto|]. intros i.
    destruct (Nat.lt_ge_cases i (length dist)) as [H|H].
    - rewrite !nth_map_lt with (da := 0) by auto. destruct (Hn (nth i dist 0)) as [A B]; [apply nth_In; auto|].
      unfold mean_of, half_sum. rewrite !clip_id by lra. lra.
    - rewrite !nth_overflow by (rewrite map_length; auto). unfold mean_of. lra.
  Qed.
End Calc.

(* ---------- C47 ---------- *)

Section Rear.
  Variables (M : Type) (SV : solver M) (mem : list R) (a : tmm_args M).
  Hypothesis Hw : well_sized SV.

  Lemma calc_size st pol theta o : (pol = "s" \/ pol = "p")%string -> p_pol o = pol -> p_theta o = theta ->
    forall t, calculate SV mem false st o = Ok t -> length (t_Al t) = length (o_layers st).
  Proof.
    intros Hpol Ep Et t H. unfold calculate in H. destruct (coh_for false st o) as [cl|]; [|discriminate].
    cbn [rbind] in H. rewrite Ep in H. replace (in_sp pol) with true in H by (destruct Hpol as [-> | ->]; reflexivity).
    destruct (solve SV st o cl pol) as [s|] eqn:E; [|discriminate]. cbn [rbind] in H.
    assert (L : length (s_abs s) = (length (o_layers st) + 2)%nat).
    { unfold solve in E. destruct (p_coherent o); [apply (proj1 Hw) in E|apply (proj2 Hw) in E]; auto. }
    injection H as <-. destruct (p_coherent o); cbn [calc_coh t_Al].
    - rewrite inner_length. lia.
    - unfold calc_inc. cbn [t_Al]. destruct (Reqb _ 0); rewrite ?map_length, inner_length, map_length; lia.
  Qed.

  Lemma rear_one pol theta : (ar_coherent a = true \/ ar_coh a = None \/ (exists l, ar_coh a = Some l /\ rev l = l)) ->
    tmm_one SV mem a Rear pol theta =
    rlift (fun e => (fst e, rev (snd e))) (tmm_one SV mem (upside_down a) Front pol theta).
  Proof.
    intros Hc. unfold tmm_one.
    replace (tmm_stack (upside_down a) Front) with (tmm_stack a Rear) by reflexivity.
    assert (E : calculate SV mem false (tmm_stack a Rear) (tmm_opts a pol theta) =
                calculate SV mem false (tmm_stack a Rear) (tmm_opts (upside_down a) pol theta)).
    { unfold calculate, tmm_opts, coh_for, solve. cbn [p_pol p_coherent p_theta p_coh upside_down ar_coherent ar_coh].
      destruct Hc as [Hc|[Hc|[l [Hc Hl]]]].
      - rewrite Hc. reflexivity.
      - rewrite Hc. reflexivity.
      - rewrite Hc. cbn [option_map]. rewrite Hl. reflexivity. }
    rewrite E. clear E.
    destruct (calculate SV mem false (tmm_stack a Rear) (tmm_opts (upside_down a) pol theta)) as [t|e]; reflexivity.
  Qed.

  Lemma rear_entry theta : (ar_coherent a = true \/ ar_coh a = None \/ (exists l, ar_coh a = Some l /\ rev l = l)) ->
    tmm_entry SV mem a Rear theta =
    rlift (fun e => (fst e, rev (snd e))) (tmm_entry SV mem (upside_down a) Front theta).
  Proof.
    intros Hc. unfold tmm_entry. cbn [upside_down ar_pol]. fold (upside_down a). destruct (String.eqb (ar_pol a) "u").
    - rewrite !rear_one by auto.
      destruct (tmm_one SV mem (upside_down a) Front "s" theta) as [es|] eqn:Es; [|reflexivity].
      destruct (tmm_one SV mem (upside_down a) Front "p" theta) as [ep|] eqn:Ep; [|reflexivity].
      unfold rlift. cbn [rbind fst snd].
      assert (L : length (snd es) = length (snd ep)).
      { unfold tmm_one in Es, Ep.
        destruct (calculate SV mem false (tmm_stack (upside_down a) Front) (tmm_opts (upside_down a) "s" theta)) as [ts|] eqn:Cs; [|discriminate].
        destruct (calculate SV mem false (tmm_stack (upside_down a) Front) (tmm_opts (upside_down a) "p" theta)) as [tp|] eqn:Cp; [|discriminate].
        injection Es as <-. injection Ep as <-. cbn [snd flip_rear]. rewrite !map_length.
        rewrite (calc_size _ "s" theta (tmm_opts (upside_down a) "s" theta) (or_introl eq_refl) eq_refl eq_refl _ Cs).
        rewrite (calc_size _ "p" theta (tmm_opts (upside_down a) "p" theta) (or_intror eq_refl) eq_refl eq_refl _ Cp). reflexivity. }
      rewrite map2_rev by auto. reflexivity.
    - apply rear_one; auto.
  Qed.
End Rear.

(* a solver that tells two coherency lists apart *)
Definition telling {M} (l0 : list bool) : solver M :=
  mk_solver (fun _ st _ => Ok (mk_sol 0 0 (repeat 0 (length (o_layers st) + 2)) (fun _ => mk_coefs 0 0 0 0 0 0) (fun _ => 0)))
    (fun _ st cl _ => Ok (mk_sol (if list_eq_dec Bool.bool_dec cl l0 then 1 else 0) 0 (repeat 0 (length (o_layers st) + 2))
        (fun _ => mk_coefs 0 0 0 0 0 0) (fun _ => 0))) (fun _ => 0).

Lemma telling_sized {M} l0 : well_sized (@telling M l0).
Proof. split; intros; cbn in H; injection H as <-; apply repeat_length. Qed.

Lemma telling_one {M} (a : tmm_args M) mem l0 sd pol theta l : ar_coherent a = false -> ar_coh a = Some l ->
  length l = length (ar_layers a) -> (pol = "s" \/ pol = "p")%string ->
  exists A, tmm_one (telling l0) mem a sd pol theta =
    Ok (if list_eq_dec Bool.bool_dec (false :: l ++ [false]) l0 then 1 else 0, 0, A).
Proof.
  intros Hc Hl HL Hpol. unfold tmm_one, calculate, coh_for, tmm_opts. cbn [p_coherent p_coh p_pol p_theta]. rewrite Hc, Hl.
  unfold build_coh_list. replace (length (o_layers (tmm_stack a sd))) with (length (ar_layers a)).
  2:{ destruct sd; cbn [tmm_stack o_layers]; auto. rewrite rev_length. auto. }
  rewrite HL, Nat.eqb_refl. cbn [rbind app]. replace (in_sp pol) with true by (destruct Hpol as [-> | ->]; reflexivity).
  unfold solve. cbn [p_coherent telling sv_inc rbind]. eexists. unfold rlift. cbn [rbind].
  apply f_equal. apply f_equal2; [|reflexivity]. unfold calc_inc. cbn [t_R t_T s_R s_T].
  apply f_equal2; [|apply clip_id; lra].
  apply clip_id. destruct (list_eq_dec _ _ _); lra.
Qed.

Lemma rear_refuted {M} (a : tmm_args M) l : ar_coherent a = false -> ar_coh a = Some l ->
  length l = length (ar_layers a) -> rev l <> l -> (ar_pol a = "s" \/ ar_pol a = "p" \/ ar_pol a = "u")%string ->
  exists SV, well_sized SV /\ forall mem theta, exists A A',
    tmm_entry SV mem a Rear theta = Ok (0, 0, A) /\ tmm_entry SV mem (upside_down a) Front theta = Ok (1, 0, A').
Proof.
  intros Hc Hl HL Hne Hpol. exists (telling (false :: rev l ++ [false])). split; [apply telling_sized|].
  intros mem theta.
  assert (P1 : forall pol, (pol = "s" \/ pol = "p")%string -> exists A, tmm_one (telling (false :: rev l ++ [false])) mem a Rear pol theta = Ok (0, 0, A)).
  { intros pol Hq. destruct (telling_one a mem (false :: rev l ++ [false]) Rear pol theta l Hc Hl HL Hq) as [A HA].
    exists A. rewrite HA. destruct (list_eq_dec _ _ _) as [E|E]; auto. exfalso.
    injection E as E. apply app_inj_tail in E. destruct E as [E _]. congruence. }
  assert (P2 : forall pol, (pol = "s" \/ pol = "p")%string -> exists A, tmm_one (telling (false :: rev l ++ [false])) mem (upside_down a) Front pol theta = Ok (1, 0, A)).
  { intros pol Hq. destruct (telling_one (upside_down a) mem (false :: rev l ++ [false]) Front pol theta (rev l)) as [A HA].
    - auto.
    - cbn [upside_down ar_coh]. rewrite Hl. auto.
    - cbn [upside_down ar_layers]. rewrite !rev_length. auto.
    - auto.
    - exists A. rewrite HA. destruct (list_eq_dec _ _ _) as [E|E]; auto. congruence. }
  unfold tmm_entry. cbn [upside_down ar_pol]. fold (upside_down a). destruct (String.eqb_spec (ar_pol a) "u") as [E|E].
  - destruct (P1 "s"%string) as [A1 E1]; auto. destruct (P1 "p"%string) as [A2 E2]; auto.
    destruct (P2 "s"%string) as [A3 E3]; auto. destruct (P2 "p"%string) as [A4 E4]; auto.
    rewrite E1, E2, E3, E4. cbn [rbind fst snd]. do 2 eexists. split.
    + apply f_equal. apply f_equal2; [|reflexivity]. unfold half_sum. apply f_equal2; lra.
    + apply f_equal. apply f_equal2; [|reflexivity]. unfold half_sum. apply f_equal2; lra.
  - assert (Hq : (ar_pol a = "s" \/ ar_pol a = "p")%string) by (destruct Hpol as [|[|]]; auto; congruence).
    destruct (P1 _ Hq) as [A1 E1]. destruct (P2 _ Hq) as [A2 E2]. eauto.
Qed.

(* depth profiles of unpolarised light *)
Lemma profile_mean M (SV : solver M) nobr st o cl s p dist : coh_for nobr st o = Ok cl ->
  answers SV st (p_coherent o) cl (p_theta o) "s" s -> answers SV st (p_coherent o) cl (p_theta o) "p" p ->
  (forall z, In z dist -> 0 <= s_prof s z /\ 0 <= s_prof p z) ->
  exists u us up, profile_at SV nobr st (with_pol o "u") dist = Ok u /\ profile_at SV nobr st (with_pol o "s") dist = Ok us /\
    profile_at SV nobr st (with_pol o "p") dist = Ok up /\ length u = length dist /\ means_of u us up.
Proof.
  intros Hcl Hs Hp Hn. unfold profile_at, answers in *.
  replace (coh_for nobr st (with_pol o "u")) with (coh_for nobr st o) by reflexivity.
  replace (coh_for nobr st (with_pol o "s")) with (coh_for nobr st o) by reflexivity.
  replace (coh_for nobr st (with_pol o "p")) with (coh_for nobr st o) by reflexivity.
  rewrite Hcl. cbn [rbind with_pol p_pol]. rewrite u_not_sp, s_sp, p_sp. unfold solve. cbn [with_pol p_pol p_coherent p_theta].
  rewrite Hs, Hp. cbn [rbind]. do 3 eexists. do 3 (split; [reflexivity|]). split; [apply map_length|].
  unfold means_of. rewrite !map_length. do 2 (split; [reflexivity|]). intros i. unfold mean_of.
  destruct (lt_dec i (length dist)) as [L|L].
  - assert (Hz : In (nth i dist 0) dist) by (apply nth_In; auto). destruct (Hn _ Hz).
    rewrite (nth_indep _ 0 (clip (half_sum (s_prof s 0) (s_prof p 0)))) by (rewrite map_length; auto).
    rewrite (nth_indep (map (fun z => clip (s_prof s z)) dist) 0 (clip (s_prof s 0))) by (rewrite map_length; auto).
    rewrite (nth_indep (map (fun z => clip (s_prof p z)) dist) 0 (clip (s_prof p 0))) by (rewrite map_length; auto).
    rewrite (map_nth (fun z => clip (half_sum (s_prof s z) (s_prof p z)))), (map_nth (fun z => clip (s_prof s z))),
      (map_nth (fun z => clip (s_prof p z))).
    rewrite !clip_id; unfold half_sum; lra.
  - rewrite !nth_overflow by (rewrite ?map_length; lia). lra.
Qed.

(* ---------- what is stored for one angle ---------- *)

Definition fine_out (t : tout) : Prop := 0 <= t_R t /\ 0 <= t_T t /\ forall x, In x (t_Al t) -> 0 <= x.

Lemma one_entry M (SV : solver M) mem a s pol theta t : fine_out t ->
  calculate SV mem false (seen_from a s) (mk_topts pol theta (ar_coherent a) (ar_coh a)) = Ok t ->
  tmm_one SV mem a s pol theta = Ok (t_R t, t_T t, as_given s (t_Al t)).
Proof.
  intros [HR [HT HA]] H. unfold tmm_one. replace (tmm_stack a s) with (seen_from a s) by (destruct s; reflexivity).
  unfold tmm_opts. rewrite H. cbn [rlift rbind]. rewrite !clip_id by auto. rewrite map_clip_id by auto. destruct s; reflexivity.
Qed.

Lemma pol_entry M (SV : solver M) mem a s theta t : ar_pol a <> "u"%string -> fine_out t ->
  calculate SV mem false (seen_from a s) (mk_topts (ar_pol a) theta (ar_coherent a) (ar_coh a)) = Ok t ->
  tmm_entry SV mem a s theta = Ok (t_R t, t_T t, as_given s (t_Al t)).
Proof.
  intros Hu Hf H. unfold tmm_entry. destruct (String.eqb_spec (ar_pol a) "u"); [contradiction|]. apply one_entry; auto.
Qed.

Lemma map2_mean : forall a b : list R, length a = length b -> means_of (map2 half_sum a b) a b.
Proof.
  intros a b H. assert (L : length (map2 half_sum a b) = length a).
  { revert b H. induction a; intros [|y b] H; cbn in *; try lia. rewrite IHa; lia. }
  split; auto. split; [lia|]. revert b H L. induction a as [|x a IH]; intros [|y b] H L i; cbn in H; try lia.
  - cbn. unfold mean_of. destruct i; lra.
  - destruct i; cbn [map2 nth].
    + unfold mean_of, half_sum. lra.
    + apply IH; [lia|]. cbn in L. lia.
Qed.

Lemma u_entry M (SV : solver M) mem a s theta ts tp : ar_pol a = "u"%string -> fine_out ts -> fine_out tp ->
  length (t_Al ts) = length (t_Al tp) ->
  calculate SV mem false (seen_from a s) (mk_topts "s" theta (ar_coherent a) (ar_coh a)) = Ok ts ->
  calculate SV mem false (seen_from a s) (mk_topts "p" theta (ar_coherent a) (ar_coh a)) = Ok tp ->
  exists Rp Tp Al, tmm_entry SV mem a s theta = Ok (Rp, Tp, Al) /\ mean_of Rp (t_R ts) (t_R tp) /\ mean_of Tp (t_T ts) (t_T tp) /\
    means_of Al (as_given s (t_Al ts)) (as_given s (t_Al tp)).
Proof.
  intros Hu Fs Fp HL Hs Hp. unfold tmm_entry. rewrite Hu. cbn [String.eqb Ascii.eqb Bool.eqb].
  rewrite (one_entry _ _ _ _ _ _ _ _ Fs Hs), (one_entry _ _ _ _ _ _ _ _ Fp Hp). cbn [rbind fst snd].
  do 3 eexists. split; [reflexivity|]. split; [unfold mean_of, half_sum; lra|]. split; [unfold mean_of, half_sum; lra|].
  apply map2_mean. destruct s; cbn [as_given]; rewrite ?rev_length; auto.
Qed.
