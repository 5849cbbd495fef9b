(* Lookup tables, profiles of the transfer-matrix method, coefficients, options. *)
From Coq Require Import Reals List ZArith Bool Lia Lra String Sorting.Sorted.
From Verif Require Import Base Lib Model_Angles Spec_Angles Model_Ideal Model_TMM Spec_TMM Proof_TMM Proof_TMM2
  Proof_RayProfile.
Import ListNotations.
Local Notation length := List.length.
Open Scope R_scope.

(* ---------- C50 ---------- *)

Lemma coh_list_ok nobr n l : length l = n ->
  exists cl, build_coh_list nobr n (Some l) = Ok cl /\
    length cl = (n + (if nobr then 3 else 2))%nat /\ nth 0 cl true = false /\
    (forall i, (1 <= i <= n)%nat -> nth i cl true = nth (i - 1) l true) /\
    (forall i, (n < i < length cl)%nat -> nth i cl true = false).
Proof.
  intros HL. unfold build_coh_list. rewrite HL, Nat.eqb_refl. eexists. split; [reflexivity|].
  set (tlb := if nobr then [false; false] else [false]).
  assert (Lt : length tlb = (if nobr then 2 else 1)%nat) by (unfold tlb; destruct nobr; reflexivity).
  cbn [app length]. rewrite app_length, Lt. split; [destruct nobr; lia|]. split; auto. split.
  - intros i Hi. destruct i as [|i]; [lia|]. cbn [nth]. rewrite app_nth1 by lia. f_equal. lia.
  - intros i Hi. destruct i as [|i]; [lia|]. cbn [nth]. rewrite app_nth2 by lia. rewrite HL in *.
    unfold tlb. destruct nobr; [|replace (i - n)%nat with 0%nat by lia; auto].
    destruct (i - n)%nat as [|[|q]] eqn:E; auto. lia.
Qed.

Lemma coh_list_bad nobr n l : length l <> n -> build_coh_list nobr n (Some l) = Err AssertionError.
Proof. intros H. unfold build_coh_list. destruct (Nat.eqb_spec (length l) n); congruence. Qed.

(* ---------- rmap ---------- *)

Lemma rmap_app {A B} (f : A -> res B) l m a b : rmap f l = Ok a -> rmap f m = Ok b -> rmap f (l ++ m) = Ok (a ++ b).
Proof.
  revert a. induction l as [|x l IH]; intros a Ha Hb; cbn [rmap app] in *; [injection Ha as <-; auto|].
  destruct (f x) as [y|]; [|discriminate]. cbn [rbind] in *. destruct (rmap f l) as [ys|]; [|discriminate].
  cbn [rbind] in Ha. injection Ha as <-. rewrite (IH ys eq_refl Hb). reflexivity.
Qed.

Lemma rmap_rev {A B} (f : A -> res B) l ys : rmap f l = Ok ys -> rmap f (rev l) = Ok (rev ys).
Proof.
  revert ys. induction l as [|x l IH]; intros ys H; cbn [rmap] in H; [injection H as <-; auto|].
  destruct (f x) as [y|] eqn:E; [|discriminate]. cbn [rbind] in H. destruct (rmap f l) as [zs|]; [|discriminate].
  cbn [rbind] in H. injection H as <-. cbn [rev]. apply rmap_app; [apply IH; auto|].
  cbn [rmap]. rewrite E. reflexivity.
Qed.

Lemma rmap_length {A B} (f : A -> res B) l ys : rmap f l = Ok ys -> length ys = length l.
Proof.
  revert ys. induction l as [|x l IH]; intros ys H; cbn [rmap] in H; [injection H as <-; auto|].
  destruct (f x); [|discriminate]. cbn [rbind] in H. destruct (rmap f l); [|discriminate].
  cbn [rbind] in H. injection H as <-. cbn [length]. rewrite (IH _ eq_refl). auto.
Qed.

Lemma coeff_rev {M} (SV : solver M) nobr st o layers c : profile_coeff SV nobr st o layers = Ok c ->
  profile_coeff SV nobr st o (rev layers) = Ok (rev c).
Proof.
  unfold profile_coeff. destruct (coh_for nobr st o) as [cl|]; [|discriminate]. cbn [rbind].
  destruct (in_sp (p_pol o)).
  - destruct (solve SV st o cl (p_pol o)) as [s|]; [|discriminate]. cbn [rbind].
    destruct (p_coherent o); [intros H; injection H as <-; rewrite map_rev; auto|apply rmap_rev].
  - destruct (solve SV st o cl "p") as [p|]; [|discriminate]. cbn [rbind].
    destruct (solve SV st o cl "s") as [s|]; [|discriminate]. cbn [rbind].
    destruct (p_coherent o); [intros H; injection H as <-; rewrite map_rev; auto|apply rmap_rev].
Qed.

Lemma coeff_length {M} (SV : solver M) nobr st o layers c : profile_coeff SV nobr st o layers = Ok c ->
  length c = length layers.
Proof.
  unfold profile_coeff. destruct (coh_for nobr st o) as [cl|]; [|discriminate]. cbn [rbind].
  destruct (in_sp (p_pol o)).
  - destruct (solve SV st o cl (p_pol o)) as [s|]; [|discriminate]. cbn [rbind].
    destruct (p_coherent o); [intros H; injection H as <-; apply map_length|apply rmap_length].
  - destruct (solve SV st o cl "p") as [p|]; [|discriminate]. cbn [rbind].
    destruct (solve SV st o cl "s") as [s|]; [|discriminate]. cbn [rbind].
    destruct (p_coherent o); [intros H; injection H as <-; apply map_length|apply rmap_length].
Qed.

(* ---------- C51 ---------- *)

Section Table.
  Variables (M : Type) (SV : solver M) (mem : list R) (a : tmm_args M) (layers : list nat).
  Let n := length (ar_layers a).
  Let back := map (fun p => (n + 1 - p)%nat) layers.
  Definition turned_entry (e : tentry) : tentry := mk_tentry (e_R e) (e_T e) (rev (e_Al e)) (e_coef e).

  Lemma one_turned q theta e : table_one SV mem (upside_down a) back 0 1 q theta = Ok e ->
    table_one SV mem a layers 1 (-1) q theta = Ok (turned_entry e).
  Proof.
    unfold table_one. cbn [upside_down ar_coherent ar_layers].
    replace (table_stack (upside_down a) 0) with (table_stack a 1) by reflexivity.
    replace (table_coh (upside_down a) 0) with (table_coh a 1).
    2:{ unfold table_coh. cbn [upside_down ar_coh ar_layers]. destruct (ar_coh a); cbn [option_map]; auto. rewrite rev_length. auto. }
    set (o := mk_topts q theta (ar_coherent a) (Some (table_coh a 1))).
    destruct (calculate SV mem false (table_stack a 1) o) as [t|]; [|discriminate]. cbn [rbind table_layers].
    destruct (profile_coeff SV false (table_stack a 1) o back) as [c|] eqn:Ec; [|discriminate]. cbn [rbind].
    intros H. injection H as <-. rewrite map_rev. fold n. fold back. rewrite (coeff_rev _ _ _ _ _ _ Ec). cbn [rbind].
    unfold turned_entry. cbn [flip_side Z.eqb Pos.eqb e_R e_T e_Al e_coef]. rewrite rev_involutive. reflexivity.
  Qed.

  Lemma one_length q theta i sd e : well_sized SV -> (q = "s" \/ q = "p")%string ->
    table_one SV mem a layers i sd q theta = Ok e -> length (e_Al e) = n /\ length (e_coef e) = length layers.
  Proof.
    intros Hw Hq. unfold table_one.
    destruct (calculate SV mem false (table_stack a i) _) as [t|] eqn:Et; [|discriminate]. cbn [rbind].
    destruct (profile_coeff SV false (table_stack a i) _ _) as [c|] eqn:Ec; [|discriminate]. cbn [rbind].
    intros H. injection H as <-. cbn [e_Al e_coef]. apply coeff_length in Ec.
    assert (L : length (t_Al t) = n).
    { eapply (calc_size M SV mem Hw _ q theta) in Et; auto. rewrite Et. destruct i; cbn [table_stack o_layers]; auto. apply rev_length. }
    unfold flip_side. destruct (Z.eqb sd (-1)); rewrite ?rev_length, ?map_length; (split; [auto|]); rewrite Ec;
      destruct i; cbn [table_layers]; rewrite ?map_length, ?rev_length; auto.
  Qed.

  Lemma table_turned pol theta e : well_sized SV ->
    table_entry SV mem (upside_down a) back [1%Z; (-1)%Z] 1 pol theta = Ok e ->
    table_entry SV mem a layers [1%Z; (-1)%Z] (-1) pol theta = Ok (turned_entry e).
  Proof.
    intros Hw. unfold table_entry. cbn [length Nat.eqb negb find_side Z.eqb Pos.eqb option_map].
    destruct (String.eqb pol "u").
    - destruct (table_one SV mem (upside_down a) back 0 1 "s" theta) as [es|] eqn:Es; [|discriminate].
      destruct (table_one SV mem (upside_down a) back 0 1 "p" theta) as [ep|] eqn:Ep; [|discriminate].
      cbn [rbind]. intros H. injection H as <-.
      rewrite (one_turned _ _ _ Es), (one_turned _ _ _ Ep). cbn [rbind]. unfold turned_entry, entry_mean. cbn [e_R e_T e_Al e_coef].
      rewrite map2_rev; [reflexivity|].
      assert (Q : forall q x, (q = "s" \/ q = "p")%string -> table_one SV mem (upside_down a) back 0 1 q theta = Ok x ->
               length (e_Al x) = n).
      { intros q x Hq. unfold table_one.
        destruct (calculate SV mem false (table_stack (upside_down a) 0) _) as [t|] eqn:Et; [|discriminate]. cbn [rbind].
        destruct (profile_coeff SV false (table_stack (upside_down a) 0) _ _) as [c|]; [|discriminate]. cbn [rbind].
        intros H. injection H as <-. cbn [e_Al flip_side Z.eqb Pos.eqb]. rewrite map_length.
        eapply (calc_size M SV mem Hw _ q theta) in Et; auto. rewrite Et. apply rev_length. }
      rewrite (Q "s"%string es), (Q "p"%string ep); auto.
    - destruct (String.eqb pol "s" || String.eqb pol "p")%bool; [|discriminate]. apply one_turned.
  Qed.

  Lemma table_nonneg sides sd pol theta e : table_entry SV mem a layers sides sd pol theta = Ok e -> entry_nonneg e.
  Proof.
    assert (P : forall i q x, table_one SV mem a layers i sd q theta = Ok x -> entry_nonneg x).
    { intros i q x. unfold table_one.
      destruct (calculate SV mem false (table_stack a i) _) as [t|]; [|discriminate]. cbn [rbind].
      destruct (profile_coeff SV false (table_stack a i) _ _) as [c|]; [|discriminate]. cbn [rbind].
      intros H. injection H as <-. split; [apply clip_nonneg|]. split; [apply clip_nonneg|]. cbn [e_Al]. intros y Hy.
      assert (In y (map clip (t_Al t))) by (unfold flip_side in Hy; destruct (Z.eqb sd (-1)); [apply in_rev|]; auto).
      apply in_map_iff in H. destruct H as [z [<- _]]. apply clip_nonneg. }
    unfold table_entry. destruct (negb _); [discriminate|]. destruct (find_side sd sides) as [i|]; [|discriminate].
    destruct (String.eqb pol "u").
    - destruct (table_one SV mem a layers i sd "s" theta) as [es|] eqn:Es; [|discriminate].
      destruct (table_one SV mem a layers i sd "p" theta) as [ep|] eqn:Ep; [|discriminate]. cbn [rbind].
      intros H. injection H as <-. destruct (P _ _ _ Es) as [A1 [A2 A3]]. destruct (P _ _ _ Ep) as [B1 [B2 B3]].
      unfold entry_nonneg, entry_mean, half_sum. cbn [e_R e_T e_Al]. split; [lra|]. split; [lra|].
      clear -A3 B3. revert A3 B3. generalize (e_Al es), (e_Al ep). induction l as [|x l IH]; intros [|y m] A B z Hz; try destruct Hz.
      + subst z. unfold half_sum. assert (0 <= x) by (apply A; left; auto). assert (0 <= y) by (apply B; left; auto). lra.
      + apply (IH m); auto; intros; [apply A|apply B]; right; auto.
    - destruct (String.eqb pol "s" || String.eqb pol "p")%bool; [|discriminate]. apply P.
  Qed.

  Lemma table_u sides sd theta e : well_sized SV -> table_entry SV mem a layers sides sd "u" theta = Ok e ->
    exists es ep, table_entry SV mem a layers sides sd "s" theta = Ok es /\
      table_entry SV mem a layers sides sd "p" theta = Ok ep /\ entry_means e es ep.
  Proof.
    intros Hw. unfold table_entry. destruct (negb _); [discriminate|]. destruct (find_side sd sides) as [i|]; [|discriminate].
    cbn [String.eqb Ascii.eqb Bool.eqb orb].
    destruct (table_one SV mem a layers i sd "s" theta) as [es|] eqn:Es; [|discriminate].
    destruct (table_one SV mem a layers i sd "p" theta) as [ep|] eqn:Ep; [|discriminate]. cbn [rbind].
    intros H. injection H as <-. exists es, ep. split; auto. split; auto.
    destruct (one_length "s" theta i sd es Hw (or_introl eq_refl) Es) as [A1 A2].
    destruct (one_length "p" theta i sd ep Hw (or_intror eq_refl) Ep) as [B1 B2].
    unfold entry_means, entry_mean. cbn [e_R e_T e_Al e_coef].
    split; [unfold mean_of, half_sum; lra|]. split; [unfold mean_of, half_sum; lra|].
    split; [apply means_map2; congruence|]. rewrite map2_length by congruence. split; [auto|]. split; [congruence|].
    intros j d Hj. rewrite map2_nth with (da := d) (db := d) by congruence.
    unfold coef_means, coef_mean, mean_of, half_sum. cbn [c_A1 c_A2 c_A3r c_A3i c_a1 c_a3]. lra.
  Qed.

  (* coherent stacks: what is stored under layer l, written out *)
  Lemma table_coherent q theta s (sd : side) : ar_coherent a = true -> (q = "s" \/ q = "p")%string ->
    sv_coh SV q (match sd with Front => mk_stack (ar_inc a) (ar_layers a) (ar_trn a)
                              | Rear => turn (mk_stack (ar_inc a) (ar_layers a) (ar_trn a)) end) theta = Ok s ->
    length (s_abs s) = (n + 2)%nat ->
    exists e, table_entry SV mem a layers [1%Z; (-1)%Z] (match sd with Front => 1 | Rear => -1 end) q theta = Ok e /\
      e_R e = Rmax 0 (s_R s) /\ e_T e = Rmax 0 (s_T s) /\
      length (e_Al e) = n /\ length (e_coef e) = length layers /\
      (forall l, (1 <= l <= n)%nat -> nth (l - 1) (e_Al e) 0 =
         Rmax 0 (nth (match sd with Front => l | Rear => (n + 1 - l)%nat end) (s_abs s) 0)) /\
      (forall j d, (j < length layers)%nat -> nth j (e_coef e) d =
         s_coef s (match sd with Front => nth j layers 0%nat | Rear => (n + 1 - nth j layers 0)%nat end)).
  Proof.
    intros Hc Hq Hs HL. unfold table_entry. cbn [length Nat.eqb negb].
    assert (Eq : String.eqb q "u" = false) by (destruct Hq as [-> | ->]; reflexivity).
    assert (Eq' : (String.eqb q "s" || String.eqb q "p")%bool = true) by (destruct Hq as [-> | ->]; reflexivity).
    assert (Esp : in_sp q = true) by (destruct Hq as [-> | ->]; reflexivity).
    rewrite Eq, Eq'. unfold table_one, calculate, profile_coeff, coh_for, solve. cbn [p_coherent p_coh p_pol p_theta].
    rewrite Hc, Esp. cbn [rbind].
    destruct sd; unfold turn in Hs; cbn [o_inc o_layers o_sub] in Hs; cbn [find_side Z.eqb Pos.eqb option_map table_stack table_layers].
    - rewrite Hs. cbn [rbind]. eexists. split; [reflexivity|]. cbn [e_R e_T e_Al e_coef calc_coh t_R t_T t_Al flip_side Z.eqb Pos.eqb].
      rewrite !clip_max. split; auto. split; auto. rewrite !map_length, inner_length. split; [lia|]. split; auto. split.
      + intros l Hl. rewrite nth_map_lt with (da := 0) by (rewrite inner_length; lia). rewrite clip_max.
        rewrite inner_nth by lia. replace (S (l - 1)) with l by lia. auto.
      + intros j d Hj. rewrite nth_map_lt with (da := 0%nat) by auto. auto.
    - rewrite Hs. cbn [rbind]. eexists. split; [reflexivity|]. cbn [e_R e_T e_Al e_coef calc_coh t_R t_T t_Al flip_side Z.eqb Pos.eqb].
      rewrite !clip_max. split; auto. split; auto. 
      split; [rewrite rev_length, map_length, inner_length; lia|].
      split; [rewrite rev_length, !map_length, rev_length; auto|]. fold n. split.
      + intros l Hl. rewrite rev_nth by (rewrite map_length, inner_length; lia). rewrite map_length, inner_length.
        rewrite nth_map_lt with (da := 0) by (rewrite inner_length; lia). rewrite clip_max. rewrite inner_nth by lia.
        repeat f_equal. lia.
      + intros j d Hj. rewrite map_map, <- map_rev, rev_involutive.
        rewrite nth_map_lt with (da := 0%nat) by auto. auto.
  Qed.

  (* C93: the stack is chosen by the position in [sides], the flip by the value *)
  Lemma sides_swapped q theta e : (q = "s" \/ q = "p")%string ->
    table_entry SV mem a layers [1%Z; (-1)%Z] 1 q theta = Ok e ->
    exists e', table_entry SV mem a layers [(-1)%Z; 1%Z] (-1) q theta = Ok e' /\
      e_R e' = e_R e /\ e_T e' = e_T e /\ e_Al e' = rev (e_Al e).
  Proof.
    intros Hq. unfold table_entry. cbn [length Nat.eqb negb find_side Z.eqb Pos.eqb].
    assert (Eq : String.eqb q "u" = false) by (destruct Hq as [-> | ->]; reflexivity).
    assert (Eq' : (String.eqb q "s" || String.eqb q "p")%bool = true) by (destruct Hq as [-> | ->]; reflexivity).
    rewrite Eq, Eq'. unfold table_one.
    destruct (calculate SV mem false (table_stack a 0) _) as [t|]; [|discriminate]. cbn [rbind].
    destruct (profile_coeff SV false (table_stack a 0) _ _) as [c|]; [|discriminate]. cbn [rbind].
    intros H. injection H as <-. eexists. split; [reflexivity|]. cbn [e_R e_T e_Al flip_side Z.eqb Pos.eqb]. auto.
  Qed.

  Lemma one_side sd0 sd q theta : table_entry SV mem a layers [sd0] sd q theta = Err ValueError.
  Proof. reflexivity. Qed.
End Table.

(* ---------- C94 ---------- *)

Lemma any_pol {M} (SV : solver M) mem nobr st o pol : (pol <> "" /\ pol <> "s" /\ pol <> "p" /\ pol <> "sp")%string ->
  calculate SV mem nobr st (with_pol o pol) = calculate SV mem nobr st (with_pol o "u").
Proof.
  intros [H1 [H2 [H3 H4]]]. unfold calculate.
  replace (coh_for nobr st (with_pol o pol)) with (coh_for nobr st (with_pol o "u")) by reflexivity.
  cbn [with_pol p_pol]. rewrite u_not_sp. replace (in_sp pol) with false; [reflexivity|].
  unfold in_sp. rewrite (proj2 (String.eqb_neq _ _) H1), (proj2 (String.eqb_neq _ _) H2), (proj2 (String.eqb_neq _ _) H3),
    (proj2 (String.eqb_neq _ _) H4). reflexivity.
Qed.

(* ---------- C61 ---------- *)

Lemma new_widths {M} (ls : list (M * R)) : forall w, length w = length ls ->
  map snd (map2 (fun l w => (fst l, w)) ls w) = w /\ map fst (map2 (fun l (w : R) => (fst l, w)) ls w) = map fst ls.
Proof.
  induction ls as [|q ls IH]; intros [|y w] H; simpl in H; try lia; [auto|].
  destruct (IH w) as [A B]; [lia|]. cbn [map2 map fst snd]. rewrite A, B. auto.
Qed.

Lemma set_widths_last {M} (ob : tobj M) hist w : length w = length (o_layers (ob_stack ob)) ->
  Forall (fun v => length v = length (o_layers (ob_stack ob))) hist ->
  let ob' := after_sets ob (hist ++ [w]) in
  widths_of (ob_stack ob') = w /\ map fst (o_layers (ob_stack ob')) = map fst (o_layers (ob_stack ob)) /\
  o_inc (ob_stack ob') = o_inc (ob_stack ob) /\ o_sub (ob_stack ob') = o_sub (ob_stack ob).
Proof.
  unfold after_sets. revert ob. induction hist as [|v hist IH]; intros ob Hw Hf; cbn [app fold_left].
  - cbn [set_widths ob_stack stack_set_widths o_layers o_inc o_sub widths_of]. unfold widths_of. cbn [o_layers].
    destruct (new_widths _ w Hw) as [A B]. split; [exact A|]. split; [exact B|]. split; reflexivity.
  - inversion Hf as [|? ? Hv Hf']; subst.
    assert (L : length (o_layers (ob_stack (set_widths ob v))) = length (o_layers (ob_stack ob))).
    { cbn [set_widths ob_stack stack_set_widths o_layers]. rewrite map2_length; auto. }
    destruct (IH (set_widths ob v)) as [A [B [C D]]].
    + rewrite L; auto.
    + eapply Forall_impl; [|apply Hf']. intros u Hu. cbv beta in *. rewrite L. auto.
    + split; auto. split; [|split; auto]. rewrite B. cbn [set_widths ob_stack stack_set_widths o_layers].
      apply new_widths. auto.
Qed.

(* ---------- depths ---------- *)

Lemma layer_bounds ws l : (1 <= l <= length ws)%nat ->
  py_index (layer_start ws) (Z.of_nat l) = Ok (rsum (firstn (l - 1) ws)) /\
  py_index (layer_end ws) (Z.of_nat l) = Ok (rsum (firstn l ws)).
Proof.
  intros Hl. unfold layer_start, layer_end, cumsum.
  rewrite !(py_index_ok _ _ 0) by (cbn [length]; rewrite cumsum_go_length; cbn [length]; lia). rewrite !Nat2Z.id. split; f_equal.
  - destruct l as [|l]; [lia|]. cbn [nth]. rewrite cumsum_go_nth by (cbn [length]; lia). cbn [firstn rsum].
    replace (S l - 1)%nat with l by lia. lra.
  - rewrite cumsum_go_nth by (cbn [length]; lia). cbn [firstn rsum]. lra.
Qed.

Lemma filter_none {A} (f : A -> bool) l : (forall x, In x l -> f x = false) -> filter f l = [].
Proof. induction l; intros H; auto. cbn [filter]. rewrite (H a) by (left; auto). apply IHl. intros; apply H; right; auto. Qed.

Lemma filter_glue (l : list R) a b c : StronglySorted Rlt l -> a <= b <= c ->
  filter (fun x => (Rleb a x && Rltb x b)%bool) l ++ filter (fun x => (Rleb b x && Rltb x c)%bool) l =
  filter (fun x => (Rleb a x && Rltb x c)%bool) l.
Proof.
  intros Hs Hab. induction Hs as [|x l Hs IH Hx]; auto. cbn [filter].
  destruct (Rleb a x) eqn:E1; cbn [andb].
  - apply Rleb_true in E1. destruct (Rltb x b) eqn:E2; cbn [andb].
    + apply Rltb_true in E2. rewrite (proj2 (Rltb_true x c)) by lra.
      replace (Rleb b x) with false by (symmetry; apply Rleb_false; lra). cbn [andb app]. f_equal. auto.
    + apply Rltb_false in E2. rewrite (proj2 (Rleb_true b x)) by lra. cbn [andb].
      assert (Z : filter (fun x0 => (Rleb a x0 && Rltb x0 b)%bool) l = []).
      { apply filter_none. intros y Hy. rewrite Forall_forall in Hx. specialize (Hx y Hy).
        replace (Rltb y b) with false by (symmetry; apply Rltb_false; lra). apply andb_false_r. }
      rewrite Z in *. cbn [app] in *. destruct (Rltb x c); [f_equal|]; auto.
  - apply Rleb_false in E1. replace (Rleb b x) with false by (symmetry; apply Rleb_false; lra). cbn [andb]. auto.
Qed.

Lemma arange_sorted stop step : 0 < step -> StronglySorted Rlt (arange0 stop step).
Proof.
  intros Hs. unfold arange0. generalize (Z.to_nat (Zceil (stop / step))) as m. intros m. generalize 0%nat as k.
  induction m; intros k; cbn [seq map]; constructor; auto. rewrite Forall_forall. intros y Hy.
  apply in_map_iff in Hy. destruct Hy as [j [<- Hj]]. apply in_seq in Hj. apply Rmult_lt_compat_r; auto. apply lt_INR. lia.
Qed.

Lemma arange_range stop step x : 0 < step -> In x (arange0 stop step) -> 0 <= x < stop.
Proof.
  intros Hs Hx. unfold arange0 in Hx. apply in_map_iff in Hx. destruct Hx as [j [<- Hj]]. apply in_seq in Hj.
  split; [apply Rmult_le_pos; [apply pos_INR|lra]|].
  pose proof (Zceil_bounds (stop / step)) as B.
  assert (Hz : (Z.of_nat j <= Zceil (stop / step) - 1)%Z) by lia.
  apply IZR_le in Hz. rewrite minus_IZR, <- INR_IZR_INZ in Hz.
  assert (INR j < stop / step) by lra. apply Rmult_lt_compat_r with (r := step) in H; auto.
  unfold Rdiv in H. rewrite Rmult_assoc, Rinv_l in H by lra. lra.
Qed.

Lemma depth_points_all ws d : StronglySorted Rlt d -> (forall w, In w ws -> 0 <= w) ->
  forall m k, (1 <= k)%nat -> (k + m = length ws + 1)%nat ->
  depth_points ws d (seq k m) = Ok (filter (fun x => (Rleb (rsum (firstn (k - 1) ws)) x && Rltb x (rsum ws))%bool) d).
Proof.
  intros Hd Hw. induction m; intros k Hk Hm; cbn [seq depth_points].
  - rewrite filter_none; auto. intros x _. replace (k - 1)%nat with (length ws) by lia. rewrite firstn_all.
    destruct (Rleb (rsum ws) x) eqn:E; auto. apply Rleb_true in E. cbn [andb]. apply Rltb_false. lra.
  - destruct (layer_bounds ws k) as [B1 B2]; [lia|]. rewrite B1, B2. cbn [rbind]. rewrite IHm by lia. cbn [rbind]. f_equal.
    replace (S k - 1)%nat with k by lia. apply filter_glue; auto.
    assert (Hnn : forall l, (forall w, In w l -> In w ws) -> 0 <= rsum l) by (intros l Hl; apply rsum_nonneg; auto).
    split.
    + destruct k as [|k]; [lia|]. replace (S k - 1)%nat with k by lia.
      rewrite <- (firstn_skipn k (firstn (S k) ws)), firstn_firstn, rsum_app. replace (Nat.min k (S k)) with k by lia.
      assert (0 <= rsum (skipn k (firstn (S k) ws))).
      { apply Hnn. intros w H. rewrite <- (firstn_skipn (S k) ws). apply in_or_app. left.
        rewrite <- (firstn_skipn k (firstn (S k) ws)). apply in_or_app. right. auto. }
      lra.
    + rewrite <- (firstn_skipn k ws) at 2. rewrite rsum_app.
      assert (0 <= rsum (skipn k ws)).
      { apply Hnn. intros w H. rewrite <- (firstn_skipn k ws). apply in_or_app. right. auto. }
      lra.
Qed.

Lemma all_depths ws spacing : 0 < spacing -> (forall w, In w ws -> 0 <= w) ->
  profile_depths ws spacing (all_layers (length ws)) = Ok (arange0 (rsum ws) spacing).
Proof.
  intros Hs Hw. unfold profile_depths, all_layers. rewrite (depth_points_all ws _ (arange_sorted _ _ Hs) Hw) by lia.
  f_equal. cbn [Nat.sub firstn rsum].
  assert (H : forall x, In x (arange0 (rsum ws) spacing) -> (Rleb 0 x && Rltb x (rsum ws))%bool = true).
  { intros x Hx. apply arange_range in Hx; auto. rewrite (proj2 (Rleb_true _ _)), (proj2 (Rltb_true _ _)) by lra. auto. }
  revert H. generalize (arange0 (rsum ws) spacing). induction l; intros H; auto. cbn [filter].
  rewrite (H a) by (left; auto). f_equal. apply IHl. intros; apply H; right; auto.
Qed.

Lemma points_in_layer ws d l : (1 <= l <= length ws)%nat ->
  depth_points ws d [l] = Ok (filter (fun x => (Rleb (rsum (firstn (l - 1) ws)) x && Rltb x (rsum (firstn l ws)))%bool) d).
Proof.
  intros Hl. cbn [depth_points]. destruct (layer_bounds ws l Hl) as [B1 B2]. rewrite B1, B2. cbn [rbind]. rewrite app_nil_r. auto.
Qed.

Lemma depths_ok ws d layers : (forall l, In l layers -> (1 <= l <= length ws)%nat) -> exists r, depth_points ws d layers = Ok r.
Proof.
  induction layers as [|l r IH]; intros H; cbn [depth_points]; [eauto|].
  destruct (layer_bounds ws l (H l (or_introl eq_refl))) as [B1 B2]. rewrite B1, B2. cbn [rbind].
  destruct IH as [x Hx]; [intros; apply H; right; auto|]. rewrite Hx. cbn [rbind]. eauto.
Qed.

(* ---------- C65, C90 ---------- *)

Section Profile.
  Variables (M : Type) (SV : solver M) (a : tmm_args M) (spacing : R) (layers : list nat) (pol : string) (theta : R)
    (cl : list bool) (s : sol) (d : list R).
  Let W := rsum (map snd (ar_layers a)).
  Hypothesis Hpol : (pol = "s" \/ pol = "p")%string.
  Hypothesis Hd : profile_depths (map snd (ar_layers a)) spacing layers = Ok d.

  Lemma dist_length sd : exists z, tmm_dist sd (map snd (ar_layers a)) spacing layers = Ok z /\ length z = length d.
  Proof.
    unfold tmm_dist, rlift. rewrite Hd. cbn [rbind]. eexists. split; [reflexivity|].
    destruct sd; auto. rewrite rev_length, map_length. auto.
  Qed.

  Lemma profile_stored sd : coh_for false (tmm_stack a sd) (tmm_opts a pol theta) = Ok cl ->
    answers SV (tmm_stack a sd) (ar_coherent a) cl theta pol s ->
    exists z data, tmm_profile SV a sd spacing layers pol theta = Ok (z, data) /\
      length z = length d /\ length data = length d /\
      forall j, (j < length d)%nat ->
        nth j data 0 = Rmax 0 (s_prof s (match sd with Front => nth j d 0 | Rear => W - nth j d 0 end)) /\
        nth j z 0 = match sd with Front => nth j d 0 | Rear => W - nth (length d - 1 - j) d 0 end.
  Proof.
    intros Hc Ha. unfold tmm_profile, tmm_dist, rlift. rewrite Hd. cbn [rbind]. unfold profile_at. rewrite Hc. cbn [rbind].
    cbn [tmm_opts p_pol]. replace (in_sp pol) with true by (destruct Hpol as [-> | ->]; reflexivity).
    unfold solve, answers in *. cbn [tmm_opts p_pol p_coherent p_theta]. rewrite Ha. cbn [rbind].
    do 2 eexists. split; [reflexivity|].
    assert (Cc : forall x, clip (clip x) = Rmax 0 x).
    { intros x. rewrite (clip_id (clip x)) by apply clip_nonneg. apply clip_max. }
    destruct sd; cbn [flip_rear].
    - rewrite !map_length. split; auto. split; auto. intros j Hj. split; auto.
      rewrite nth_map_lt with (da := 0) by (rewrite map_length; auto).
      rewrite nth_map_lt with (da := 0) by auto. apply Cc.
    - rewrite !rev_length, !map_length, rev_length, !map_length. split; auto. split; auto. intros j Hj. split.
      + rewrite rev_nth by (rewrite !map_length, rev_length, map_length; auto).
        rewrite !map_length, rev_length, map_length.
        rewrite nth_map_lt with (da := 0) by (rewrite map_length, rev_length, map_length; lia).
        rewrite nth_map_lt with (da := 0) by (rewrite rev_length, map_length; lia).
        rewrite rev_nth by (rewrite map_length; lia). rewrite map_length.
        rewrite nth_map_lt with (da := 0) by lia. rewrite Cc. fold W.
        replace (length d - S (length d - S j))%nat with j by lia. reflexivity.
      + rewrite rev_nth by (rewrite map_length; lia). rewrite map_length.
        rewrite nth_map_lt with (da := 0) by lia. fold W.
        replace (length d - S j)%nat with (length d - 1 - j)%nat by lia. reflexivity.
  Qed.
End Profile.
