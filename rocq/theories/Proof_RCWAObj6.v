From Coq Require Import Reals List ZArith Bool String Lia Lra.
From Verif Require Import Base Lib Model_Diff Model_RCWA Model_RCWAObj Spec_RCWAObj Proof_RCWAObj Proof_RCWAObj2 Proof_RCWAObj3 Proof_RCWAObj4 Proof_RCWAObj5.
From Verif Require Proof_RayProfile.
Import ListNotations.
Local Notation length := List.length.
Open Scope R_scope.

(* ---------- places (C63) ---------- *)

Lemma inner_stack ws : inner (stack_of ws) = ws.
Proof. unfold inner, stack_of. cbn [tl]. rewrite removelast_app by discriminate. cbn [removelast]. rewrite app_nil_r, map_map. cbn [thickness]. apply map_id. Qed.

Lemma firstn_snoc {A} (l : list A) x k : (k <= length l)%nat -> firstn k (l ++ [x]) = firstn k l.
Proof. intros H. rewrite firstn_app. replace (k - length l)%nat with 0%nat by lia. cbn [firstn]. apply app_nil_r. Qed.

Lemma layer_top_ok ob ws l : o_widths ob = stack_of ws -> (1 <= l <= length ws + 1)%nat -> layer_top ob l = Ok (rsum (firstn (l - 1) ws)).
Proof.
  intros Hw Hl. unfold layer_top. rewrite Hw, inner_stack. replace (Z.of_nat l - 1)%Z with (Z.of_nat (l - 1)) by lia.
  unfold cumsum. rewrite (py_index_ok _ _ 0) by (rewrite Proof_RayProfile.cumsum_go_length; cbn [length]; rewrite app_length; cbn [length]; lia).
  rewrite Nat2Z.id. f_equal. rewrite Proof_RayProfile.cumsum_go_nth by (cbn [length]; rewrite app_length; cbn [length]; lia). cbn [firstn rsum]. rewrite firstn_snoc by lia. lra.
Qed.

Lemma firstn_S_rsum (ws : list R) : forall k, (k < length ws)%nat -> rsum (firstn (S k) ws) = rsum (firstn k ws) + nth k ws 0.
Proof.
  induction ws as [|w ws IH]; intros [|k] H; cbn [length] in H; try lia; cbn [firstn rsum nth]; [lra|].
  cbn [firstn] in IH. rewrite IH by lia. lra.
Qed.

Lemma at_depth ws l d : (1 <= l <= length ws + 1)%nat -> 0 <= d -> ((l <= length ws)%nat -> d < nth (l - 1) ws 0) ->
  in_layer ws l (rsum (firstn (l - 1) ws) + d).
Proof.
  intros Hl H0 Hd. destruct l as [|k]; [lia|]. cbn [in_layer]. replace (S k - 1)%nat with k in * by lia. split; [lra|]. split; [|lia].
  intros Hk. rewrite firstn_S_rsum by auto. specialize (Hd ltac:(lia)). lra.
Qed.

Lemma places_ok ob ws m l d : o_widths ob = stack_of ws -> m <> MOther -> (1 <= l <= length ws + 1)%nat -> 0 <= d ->
  ((l <= length ws)%nat -> d < nth (l - 1) ws 0) ->
  (exists p, fields_place ob m l d = Ok p /\ place_is ws l d p) /\
  (m = MS4 -> exists p, cell_place ob m l d = Ok p /\ place_is ws l d p) /\
  (d = 1 / 10 ^ 10 -> m = MS4 -> exists p, epsilon_place ob m l = Ok p /\ place_is ws l d p) /\
  (m = MInk -> exists p, epsilon_place ob m l = Ok p /\ place_is ws l 0 p) /\
  (exists p, epsilon_place ob MS4 0 = Ok p /\ place_is ws 0 (-1) p).
Proof.
  intros Hw Hm Hl H0 Hd. pose proof (at_depth ws l d Hl H0 Hd) as HI. pose proof (layer_top_ok ob ws l Hw Hl) as HT.
  assert (E0 : Nat.ltb 0 l = true) by (apply Nat.ltb_lt; lia). split; [|split; [|split; [|split]]].
  - unfold fields_place. rewrite E0, HT. cbn [rbind]. destruct m; [| |congruence]; eexists; (split; [reflexivity|]); cbn [place_is]; auto.
  - intros ->. unfold cell_place. rewrite E0, HT. cbn [rbind]. eexists. split; [reflexivity|]. cbn [place_is]. auto.
  - intros Ed ->. unfold epsilon_place. rewrite E0, HT. cbn [rbind]. eexists. split; [reflexivity|]. cbn [place_is]. rewrite <- Ed. auto.
  - intros ->. exists (InLayer (l + 1) 0). split; auto. cbn [place_is]. auto.
  - eexists. split; [reflexivity|]. cbn [place_is in_layer Nat.sub firstn rsum]. lra.
Qed.

Lemma z_integral_off m l k : z_integral_layer m l = Ok k -> k <> postscript_layer l /\ (l = 0%nat -> k = 0%nat) /\
  forall ob d, fields_place ob MInk (l - 1) d = Ok (InLayer k d) \/ l = 0%nat \/ (forall p, fields_place ob MInk (l - 1) d <> Ok p).
Proof.
  unfold z_integral_layer, postscript_layer. destruct m; try discriminate. intros H. injection H as <-. split; [lia|]. split; auto. intros ob d.
  destruct l as [|l]; auto. replace (S l - 1)%nat with l by lia. unfold fields_place.
  destruct (if Nat.ltb 0 l then _ else _) as [z|e]; cbn [rbind]; [left; do 2 f_equal; lia|right; right; discriminate].
Qed.

(* ---------- layer 0 (C108) ---------- *)

Lemma fields_layer0 ob d : fields_place ob MS4 0 d = Err UnboundLocalError. Proof. reflexivity. Qed.
Lemma cell_layer0 ob ws d p : cell_place ob MS4 0 d = Ok p -> 0 <= d -> ((0 < length ws)%nat -> d < nth 0 ws 0) -> exists z, p = AtZ z /\ in_layer ws 1 z /\ ~ in_layer ws 0 z.
Proof.
  unfold cell_place. cbn [Nat.ltb Nat.leb]. intros H H0 H1. injection H as <-. exists d. split; auto. cbn [in_layer firstn rsum]. split; [|lra]. split; [lra|]. split; [|lia].
  destruct ws as [|w ws]; cbn [length] in *; [lia|]. intros _. cbn [firstn rsum]. specialize (H1 ltac:(lia)). cbn [nth] in H1. lra.
Qed.

(* ---------- find_in_structure_with_inf (C112) ---------- *)

Lemma find_ok ws : forall d, 0 <= d -> let l := fst (find_in_structure ws d) in
  (l <= length ws)%nat /\ snd (find_in_structure ws d) = d - rsum (firstn l ws) /\ rsum (firstn l ws) <= d /\ ((l < length ws)%nat -> d < rsum (firstn (S l) ws)).
Proof.
  induction ws as [|w ws IH]; intros d Hd; cbn [find_in_structure].
  - cbn [fst snd firstn rsum length]. repeat split; try lra; lia.
  - destruct (Rleb w d) eqn:E; [apply Rleb_true in E|apply Rleb_false in E]; cbn [fst snd].
    + destruct (IH (d - w) ltac:(lra)) as (A & B & C & D). cbn [length]. split; [lia|]. cbn [firstn rsum] in *. split; [rewrite B; lra|]. split; [lra|]. intros L. specialize (D ltac:(lia)). lra.
    + cbn [firstn rsum length]. split; [lia|]. split; [lra|]. split; [lra|]. intros _. lra.
Qed.

Lemma find_inf_ok ws d : let '(l, dl) := find_with_inf (stack_of ws) d in in_layer ws l d /\ dl = d - rsum (firstn (l - 1) ws).
Proof.
  unfold find_with_inf. rewrite inner_stack. destruct (Rltb d 0) eqn:E; [apply Rltb_true in E|apply Rltb_false in E].
  - cbn [in_layer Nat.sub firstn rsum]. split; lra.
  - pose proof (find_ok ws d ltac:(lra)) as H. destruct (find_in_structure ws d) as [l dl]. cbn [fst snd] in *. destruct H as (A & B & C & D). cbn [in_layer]. replace (S l - 1)%nat with l by lia. auto.
Qed.

Lemma in_layer_one ws l l' z : Forall (fun w => 0 <= w) ws -> in_layer ws l z -> in_layer ws l' z -> l = l'.
Proof.
  intros Hp. assert (M : forall a b, (a <= b <= length ws)%nat -> rsum (firstn a ws) <= rsum (firstn b ws)).
  { intros a b [H1 H2]. induction H1 as [|b H1 IH]; [lra|]. rewrite firstn_S_rsum by lia. specialize (IH ltac:(lia)). rewrite Forall_forall in Hp.
    assert (0 <= nth b ws 0) by (apply Hp, nth_In; lia). lra. }
  assert (P : forall k, (k <= length ws)%nat -> 0 <= rsum (firstn k ws)). { intros k Hk. specialize (M 0%nat k ltac:(lia)). cbn [firstn rsum] in M. lra. }
  destruct l as [|k], l' as [|k']; cbn [in_layer]; auto.
  - intros A (B & _ & C). specialize (P k' C). lra.
  - intros (B & _ & C) A. specialize (P k C). lra.
  - intros (A & B & C) (A' & B' & C'). destruct (Nat.lt_trichotomy k k') as [L|[L|L]]; [|congruence|].
    + specialize (B ltac:(lia)). specialize (M (S k) k' ltac:(lia)). lra.
    + specialize (B' ltac:(lia)). specialize (M (S k') k ltac:(lia)). lra.
Qed.

Lemma nth_set_nth {A} (l : list A) a x : (a < length l)%nat -> nth_error (set_nth a x l) a = Some x.
Proof. revert a. induction l as [|y l IH]; intros [|a] H; simpl in *; try lia; auto. apply IH. lia. Qed.

Lemma run_wl_nth {X} (f : (nat -> vlist) -> nat -> res ((nat -> vlist) * X)) : forall is_ hv out, run_wl f hv is_ = Ok out ->
  length (snd out) = length is_ /\ forall j i x, nth_error is_ j = Some i -> nth_error (snd out) j = Some x -> exists hv1 hv2, f hv1 i = Ok (hv2, x).
Proof.
  induction is_ as [|i is_ IH]; intros hv out H; cbn [run_wl] in H; [injection H as <-; split; auto; intros [|j] i0 x Hj; discriminate|].
  apply rbind_ok in H. destruct H as (u & E & H). apply rbind_ok in H. destruct H as (w & E0 & H). injection H as <-. destruct (IH _ _ E0) as [A B]. cbn [snd length]. split; [lia|].
  intros [|j] i0 x Hj Hx; cbn [nth_error] in *; [|eauto]. injection Hj as <-. injection Hx as <-. exists hv, (fst u). destruct u; auto.
Qed.

Lemma nth_error_seq n j : (j < n)%nat -> nth_error (seq 0 n) j = Some j.
Proof. intros H. rewrite (nth_error_nth' _ 0%nat) by (rewrite seq_length; auto). rewrite seq_nth by auto. auto. Qed.

(* every value of the profile is the absorption density at the point of the layer that contains the depth *)
Lemma dist_depths ob o ws : o_widths ob = stack_of ws -> profile_depths o ws (prof_dist ob o).
Proof.
  intros Hw. unfold profile_depths, prof_dist. destruct (p_zpoints o) as [z|]; [reflexivity|]. rewrite Hw.
  assert (I : inner (stack_of ws) = ws).
  { unfold inner, stack_of. cbn [tl]. rewrite removelast_last, map_map. cbn [thickness]. apply map_id. }
  rewrite I. set (limit := match p_zlimit o with Some z => z | None => rsum ws end). set (step := p_spacing o * 10 ^ 9). clearbody limit step.
  intros Hs Hl. unfold arange0. set (n := Zceil (limit / step)). pose proof (Zceil_bounds (limit / step)) as [B1 B2]. fold n in B1, B2.
  assert (Q0 : 0 <= limit / step) by (apply Rmult_le_pos; [lra|left; now apply Rinv_0_lt_compat]).
  assert (N0 : (0 <= n)%Z). { apply le_IZR. lra. }
  assert (IN : INR (Z.to_nat n) = IZR n) by (rewrite INR_IZR_INZ, Z2Nat.id; auto).
  assert (EL : limit = limit / step * step) by (field; lra). split.
  - intros j z Hj. rewrite nth_error_map in Hj. destruct (nth_error (seq 0 (Z.to_nat n)) j) as [k|] eqn:Ek; [|discriminate]. injection Hj as <-.
    assert (Lk : (j < Z.to_nat n)%nat). { rewrite <- (seq_length (Z.to_nat n) 0). apply nth_error_Some. congruence. }
    rewrite nth_error_seq in Ek by auto. injection Ek as <-. split; [reflexivity|].
    assert (INR j <= IZR n - 1). { rewrite <- IN. replace (INR (Z.to_nat n) - 1) with (INR (Z.to_nat n - 1)) by (rewrite minus_INR by lia; reflexivity). apply le_INR. lia. }
    rewrite EL. apply Rmult_lt_compat_r; lra.
  - rewrite map_length, seq_length, IN. rewrite EL. apply Rmult_le_compat_r; lra.
Qed.

Lemma profile_values W SV strict o st ob' h' a ws : calculate_profile W SV strict o st = Ok (ob', h', a) -> o_widths ob' = stack_of ws ->
  exists zs d p pol rA, profile_depths o ws zs /\ nth_error (h_res h') a = Some d /\ r_profile d = Some p /\ process_pol (p_pol o) = Ok pol /\
    o_ratA ob' = Some rA /\ length p = length (p_wl o) /\
    forall i row, nth_error p i = Some row -> length row = length zs /\
      ((nth i rA 0 <= 0 /\ forall x, In x row -> x = 0) \/
       exists D, 0 < nth i rA 0 /\ told_widths D = 0 :: ws ++ [0] /\ forall j z x, nth_error zs j = Some z -> nth_error row j = Some x ->
         exists l, in_layer ws l z /\ forall s dl, s = SV D (p_theta o) (p_phi o) pol (freq (nth i (p_wl o) 0)) -> dl = z - rsum (firstn (l - 1) ws) ->
           x = Rmax 0 ((so_at s (l + 1) (dl - 1 / 10 ^ 9) - so_at s (l + 1) (dl + 1 / 10 ^ 9)) / (2 * (1 / 10 ^ 9) * fst (fx (so_flux s) 1)))).
Proof.
  intros H Hw. destruct (profile_parts _ _ _ _ _ _ _ _ H) as (pol & rf & st1 & ratA & out & d & Hp & _ & _ & _ & E & HA & _ & Er & _ & _ & Hd & Hh).
  exists (prof_dist ob' o), (mk_rdict (r_R d) (r_T d) (r_A d) (r_orders d) (Some (map (map clip0) (snd out)))), (map (map clip0) (snd out)), pol, ratA. split; [now apply dist_depths|].
  assert (L : (a < length (h_res (snd st1)))%nat) by (apply nth_error_Some; congruence). split; [rewrite Hh; apply nth_set_nth; auto|]. split; auto. split; auto. split; auto.
  destruct (run_wl_nth _ _ _ _ Er) as [RL RN]. rewrite map_length, RL, seq_length. split; auto. intros i row Hi.
  rewrite nth_error_map in Hi. destruct (nth_error (snd out) i) as [r0|] eqn:E0; [|discriminate]. injection Hi as <-. rewrite map_length.
  assert (Li : (i < length (p_wl o))%nat). { rewrite seq_length in RL. rewrite <- RL. apply nth_error_Some. congruence. }
  destruct (RN i i r0 (nth_error_seq _ _ Li) E0) as (hv1 & hv2 & Hx). unfold wl_prof in Hx.
  apply rbind_ok in Hx. destruct Hx as (A & EA & Hx). apply py_index_nth in EA. rewrite (nth_error_nth ratA i 0 EA). destruct (Rltb 0 A) eqn:PA; [apply Rltb_true in PA|apply Rltb_false in PA].
  - apply rbind_ok in Hx. destruct Hx as ([hv3 D] & EB & Hx). cbn [fst snd] in Hx. injection Hx as _ <-. rewrite map_length. split; auto. right. exists D. split; [exact PA|].
    destruct (build_S_told _ _ _ _ _ _ _ _ EB) as (_ & _ & _ & _ & _ & _ & _ & KW & _). split; [rewrite KW, Hw; apply thickness_stack|].
    intros j z x Hj Hxj. rewrite map_map, nth_error_map, Hj in Hxj. injection Hxj as <-. pose proof (find_inf_ok ws z) as F. rewrite Hw. destruct (find_with_inf (stack_of ws) z) as [l dl]. destruct F as [F1 F2].
    exists l. split; auto. intros s dl' -> ->. rewrite <- F2. match goal with |- clip0 ?x = Rmax 0 ?y => change y with x; generalize x end. intros v. unfold clip0, Rmax. destruct (Rle_dec 0 v); rcase; lra.
  - injection Hx as _ <-. rewrite repeat_length. split; auto. left. split; [exact PA|]. intros x Hin. apply in_map_iff in Hin. destruct Hin as (y & <- & Hy). apply repeat_spec in Hy. subst y. unfold clip0. rcase; auto.
Qed.

(* ---------- wavelengths (C104, C107) ---------- *)

Lemma nth_error_ext_eq {A} (a b : list A) : length a = length b -> (forall i, nth_error a i = nth_error b i) -> a = b.
Proof. revert b. induction a as [|x a IH]; intros [|y b] HL H; try discriminate; auto. pose proof (H 0%nat) as H0. injection H0 as <-. f_equal. apply IH; [injection HL; auto|]. intros i. apply (H (S i)). Qed.

Lemma np_all_eq_len strict a b : length a = length b -> exists t, np_all_eq strict a b = Ok t.
Proof. intros H. unfold np_all_eq. rewrite H, Nat.eqb_refl. eauto. Qed.

Lemma np_all_eq_true strict a b : length a = length b -> np_all_eq strict a b = Ok true -> a = b.
Proof.
  intros HL H. apply nth_error_ext_eq; auto. intros i. destruct (nth_error a i) as [x|] eqn:Ea, (nth_error b i) as [y|] eqn:Eb; auto.
  - f_equal. eapply np_all_eq_nth; eauto.
  - apply nth_error_None in Eb. assert (nth_error a i <> None) as Q by congruence. apply nth_error_Some in Q. lia.
  - apply nth_error_None in Ea. assert (nth_error b i <> None) as Q by congruence. apply nth_error_Some in Q. lia.
Qed.

Lemma wl_refreshed W strict o ob : length (p_wl o) = length (o_wl ob) -> exists rf, refresh W strict o ob = Ok rf /\ o_wl (snd rf) = p_wl o.
Proof.
  intros HL. unfold refresh. destruct (np_all_eq_len strict _ _ HL) as [t Ht]. rewrite Ht. cbn [rbind]. eexists. split; [reflexivity|]. cbn [snd]. destruct t; auto.
  symmetry. eapply np_all_eq_true; eauto.
Qed.

Lemma wl_length_error W SV o ob h pol : process_pol (p_pol o) = Ok pol -> length (p_wl o) <> length (o_wl ob) -> length (p_wl o) <> 1%nat -> length (o_wl ob) <> 1%nat ->
  calculate W SV true o (ob, h) = Err ValueError /\ calculate_profile W SV true o (ob, h) = Err ValueError.
Proof.
  intros Hp H1 H2 H3. unfold calculate, calculate_profile, refresh. cbn [fst snd]. rewrite Hp. cbn [rbind].
  assert (E : np_all_eq true (p_wl o) (o_wl ob) = Err ValueError).
  { unfold np_all_eq. rewrite (proj2 (Nat.eqb_neq _ _) H1), (proj2 (Nat.eqb_neq _ _) H2), (proj2 (Nat.eqb_neq _ _) H3). auto. }
  rewrite E. auto.
Qed.

Lemma argmin_go_R : forall l bi b i pre, length pre = i -> (bi < i)%nat -> nth_error pre bi = Some b ->
  exists m, nth_error (pre ++ l) (argmin_go Rltb bi b i l) = Some m /\ m <= b /\ forall y, In y l -> m <= y.
Proof.
  induction l as [|x l IH]; intros bi b i pre Hpre Hbi Hb; cbn [argmin_go].
  - exists b. rewrite app_nil_r. split; auto. split; [lra|]. intros y [].
  - replace (pre ++ x :: l) with ((pre ++ [x]) ++ l) by (rewrite <- app_assoc; auto). destruct (Rltb x b) eqn:E.
    + apply Rltb_true in E. destruct (IH i x (S i) (pre ++ [x])) as (m & A & B & C); [rewrite app_length; simpl; lia|lia|rewrite nth_error_app2 by lia; replace (i - length pre)%nat with 0%nat by lia; auto|].
      exists m. split; auto. split; [lra|]. intros y [<-|Hy]; auto.
    + apply Rltb_false in E. destruct (IH bi b (S i) (pre ++ [x])) as (m & A & B & C); [rewrite app_length; simpl; lia|lia|rewrite nth_error_app1 by lia; auto|].
      exists m. split; auto. split; [lra|]. intros y [<-|Hy]; auto; lra.
Qed.

Lemma argmin_R l i : argmin Rltb l = Ok i -> exists m, nth_error l i = Some m /\ forall y, In y l -> m <= y.
Proof.
  destruct l as [|b l]; cbn [argmin]; [discriminate|]. intros H. injection H as <-. destruct (argmin_go_R l 0 b 1 [b]) as (m & A & B & C); auto.
  exists m. split; auto. intros y [<-|Hy]; auto.
Qed.

Lemma wl_index_nearest ob w : (exists i x, wl_index ob w = Ok i /\ nth_error (o_wl ob) i = Some x /\
  forall y, In y (o_wl ob) -> Rabs (x * 10 ^ 9 - w) <= Rabs (y * 10 ^ 9 - w)) \/ o_wl ob = [].
Proof.
  destruct (o_wl ob) as [|b l] eqn:E; auto. left. unfold wl_index. rewrite E.
  destruct (argmin Rltb (map (fun x => Rabs (x * 10 ^ 9 - w)) (b :: l))) as [i|] eqn:Ea; [|discriminate]. destruct (argmin_R _ _ Ea) as (m & A & B).
  rewrite nth_error_map in A. destruct (nth_error (b :: l) i) as [x|] eqn:Ex; [|discriminate]. injection A as <-. exists i, x. split; auto. split; auto.
  intros y Hy. apply B. apply in_map_iff. eauto.
Qed.

Lemma wl_index_found ob x : In x (o_wl ob) -> exists i, wl_index ob (x * 10 ^ 9) = Ok i /\ nth_error (o_wl ob) i = Some x.
Proof.
  intros Hin. destruct (wl_index_nearest ob (x * 10 ^ 9)) as [(i & y & A & B & C)|E]; [|rewrite E in Hin; destruct Hin].
  exists i. split; auto. rewrite B. f_equal. specialize (C x Hin). replace (x * 10 ^ 9 - x * 10 ^ 9) with 0 in C by lra. rewrite Rabs_R0 in C.
  destruct (Req_dec (y * 10 ^ 9 - x * 10 ^ 9) 0) as [E|E]; [|apply Rabs_pos_lt in E; lra]. assert (0 < 10 ^ 9) by (apply pow_lt; lra). nra.
Qed.

(* ---------- options (C105, C106) ---------- *)

Lemma read_merged u : exists l, read_options (Some (merge_options u)) = Ok l.
Proof.
  unfold read_options. assert (H : forall k, In k s4_keys -> exists v, merge_options u k = Some v).
  { intros k Hk. unfold merge_options. assert (Q : exists v, s4_default k = Some v). { unfold s4_default. destruct (index_of_in k s4_keys Hk) as [i ->]. eauto. }
    destruct u as [d|]; auto. destruct (d k); eauto. }
  induction s4_keys as [|k ks IH]; cbn [rmap]; eauto. destruct (H k (or_introl eq_refl)) as [v ->]. cbn [rbind]. destruct IH as [l ->]; [intros k' Hk'; apply H; right; auto|]. cbn [rbind]. eauto.
Qed.

Lemma perorder_rel W SV strict o ob h ob' h' a : calculate W SV strict (with_perorder false o) (ob, h) = Ok (ob', h', a) ->
  exists rf out pol, refresh W strict o ob = Ok rf /\ snd out <> [] /\ run_wl (fun hv i => structure_wl SV (snd rf) hv (with_perorder false o) pol i) (h_v h) (seq 0 (length (p_wl o))) = Ok out /\
  process_pol (p_pol o) = Ok pol /\ p_meth o <> MOther.
Proof.
  intros H. destruct (calculate_parts _ _ _ _ _ _ _ _ H) as (pol & rf & out & A & B & C & D & _ & _ & E & _). exists rf, out, pol. auto 10.
Qed.

Lemma structure_wl_perorder SV ob hv o pol i b : match structure_wl SV ob hv (with_perorder false o) pol i with
  | Ok (hv', x) => exists ord, structure_wl SV ob hv (with_perorder b o) pol i = Ok (hv', (fst x, ord)) /\ (p_meth o = MInk -> ord = None) /\ (p_meth o = MS4 -> b = true -> ord <> None)
  | Err e => structure_wl SV ob hv (with_perorder b o) pol i = Err e end.
Proof.
  unfold structure_wl. cbn [with_perorder p_meth p_orders p_theta p_phi p_wl p_perorder]. destruct (build_S ob hv (p_meth o) (p_orders o) (o_user ob) i) as [hS|e]; cbn [rbind]; auto.
  destruct (rcwa_rt _ _) as [[Rt T] incpf]. cbn [fst snd]. eexists. split; [reflexivity|]. split; [intros ->; auto|]. intros -> ->. discriminate.
Qed.

Lemma run_perorder SV ob o pol b : forall is_ hv out, run_wl (fun hv i => structure_wl SV ob hv (with_perorder false o) pol i) hv is_ = Ok out ->
  exists out', run_wl (fun hv i => structure_wl SV ob hv (with_perorder b o) pol i) hv is_ = Ok out' /\ fst out' = fst out /\ map fst (snd out') = map fst (snd out) /\
    (p_meth o = MInk -> forall x, In x (snd out') -> snd x = None) /\ (p_meth o = MS4 -> b = true -> forall x, In x (snd out') -> snd x <> None).
Proof.
  induction is_ as [|i is_ IH]; intros hv out H; cbn [run_wl] in H; [injection H as <-; eexists; split; [reflexivity|]; repeat split; auto; intros; contradiction|].
  apply rbind_ok in H. destruct H as ([hv1 x] & E & H). apply rbind_ok in H. destruct H as (w & E0 & H). injection H as <-. cbn [fst snd] in *.
  pose proof (structure_wl_perorder SV ob hv o pol i b) as K. rewrite E in K. destruct K as (ord & K1 & K2 & K3). destruct (IH _ _ E0) as (out' & A & B & C & D & F).
  cbn [run_wl]. rewrite K1. cbn [rbind fst snd]. rewrite A. cbn [rbind fst snd]. eexists. split; [reflexivity|]. cbn [fst snd map]. split; auto. split; [rewrite C; auto|].
  split; intros Hm; [intros y [<-|Hy]; cbn [snd]; auto|intros Hb y [<-|Hy]; cbn [snd]; auto].
Qed.

Lemma rmap_ok_all {A B} (f : A -> res B) l : (forall x, In x l -> exists y, f x = Ok y) -> exists r, rmap f l = Ok r.
Proof. induction l as [|x l IH]; intros H; cbn [rmap]; eauto. destruct (H x (or_introl eq_refl)) as [y ->]. cbn [rbind]. destruct IH as [r ->]; [intros; apply H; right; auto|]. cbn [rbind]. eauto. Qed.

Lemma perorder_ink W SV strict o ob h st a : p_meth o = MInk -> calculate W SV strict (with_perorder false o) (ob, h) = Ok (st, a) ->
  calculate W SV strict (with_perorder true o) (ob, h) = Err IndexError.
Proof.
  intros Hm H. destruct st as [ob' h']. destruct (perorder_rel _ _ _ _ _ _ _ _ _ H) as (rf & out & pol & A & B & C & D & E). destruct (run_perorder SV (snd rf) o pol true _ _ _ C) as (out' & K1 & K2 & K3 & K4 & _).
  unfold calculate. cbn [fst snd with_perorder p_pol p_meth p_wl p_perorder]. rewrite D. cbn [rbind]. replace (refresh W strict (with_perorder true o) ob) with (Ok rf) by auto. cbn [rbind].
  rewrite Hm. cbn [rbind]. fold (with_perorder true o). match goal with |- context [run_wl ?f ?h ?s] => replace (run_wl f h s) with (Ok out') by auto end. cbn [rbind].
  destruct (snd out') as [|x l] eqn:Eo. { destruct (snd out); [congruence|discriminate]. } cbn [rbind rmap]. unfold item3 at 1. rewrite (K4 Hm x) by (simpl; auto). auto.
Qed.

Lemma perorder_S4 W SV strict o ob h st a : p_meth o = MS4 -> p_s4 o = None -> calculate W SV strict (with_perorder false o) (ob, h) = Ok (st, a) ->
  calculate W SV strict (with_perorder true o) (ob, h) = Err KeyError.
Proof.
  intros Hm Hs H. destruct st as [ob' h']. destruct (perorder_rel _ _ _ _ _ _ _ _ _ H) as (rf & out & pol & A & B & C & D & E). destruct (run_perorder SV (snd rf) o pol true _ _ _ C) as (out' & K1 & K2 & K3 & _ & K5).
  unfold calculate. cbn [fst snd with_perorder p_pol p_meth p_wl p_perorder]. rewrite D. cbn [rbind]. replace (refresh W strict (with_perorder true o) ob) with (Ok rf) by auto. cbn [rbind].
  rewrite Hm. cbn [rbind]. match goal with |- context [run_wl ?f ?h ?s] => replace (run_wl f h s) with (Ok out') by (rewrite <- K1, <- Hm; auto) end. cbn [rbind].
  destruct (rmap_ok_all item3 (snd out')) as [r Hr]. { intros x Hx. unfold item3. destruct (snd x) eqn:Ex; eauto. exfalso. exact (K5 Hm eq_refl x Hx Ex). }
  destruct (snd out') as [|x l] eqn:Eo. { destruct (snd out); [congruence|discriminate]. } cbn [rbind]. rewrite Hr. cbn [rbind]. unfold make_S. change (p_s4 (with_perorder true o)) with (p_s4 o). change (p_meth (with_perorder true o)) with (p_meth o). rewrite Hm, Hs. auto.
Qed.

(* ---------- structure entries (C109), list materials (C113) ---------- *)

Lemma entries_one structure : (forall e, In e structure -> match e with LayList n _ _ _ => n = 4%nat \/ n = 5%nat | _ => True end) ->
  length (List.concat (map entry_layers structure)) = length structure.
Proof.
  induction structure as [|e l IH]; intros H; auto. cbn [map List.concat length]. rewrite app_length, IH by (intros; apply H; right; auto).
  specialize (H e (or_introl eq_refl)). destruct e as [|n w ep g]; auto. destruct H as [-> | ->]; auto.
Qed.

Lemma entries_dropped n w ep g l1 l2 : n <> 4%nat -> n <> 5%nat ->
  List.concat (map entry_layers (l1 ++ LayList n w ep g :: l2)) = List.concat (map entry_layers (l1 ++ l2)).
Proof.
  intros H4 H5. rewrite !map_app, !concat_app. cbn [map List.concat entry_layers]. rewrite (proj2 (Nat.eqb_neq _ _) H4), (proj2 (Nat.eqb_neq _ _) H5). auto.
Qed.
Lemma new_obj_dropped W order n w ep g l1 l2 size o inc tra : n <> 4%nat -> n <> 5%nat ->
  new_obj W order (l1 ++ LayList n w ep g :: l2) size o inc tra = new_obj W order (l1 ++ l2) size o inc tra.
Proof. intros H4 H5. unfold new_obj. rewrite entries_dropped by auto. auto. Qed.

Lemma list_material W order structure size o inc tra : In MList (shape_mats_of (List.concat (map entry_layers structure))) ->
  new_obj W order structure size o inc tra = Err TypeError.
Proof.
  intros H. apply in_mat_list in H. unfold new_obj, set_of. set (l := mat_list _) in *.
  assert (E : rmap (fun m => match m with MObj i => Ok i | MList => Err TypeError end) l = Err TypeError).
  { clearbody l. induction l as [|m l IH]; [destruct H|]. cbn [rmap]. destruct m as [i|]; auto. cbn [rbind]. destruct H as [H|H]; [discriminate|]. rewrite IH by auto. auto. }
  rewrite E. auto.
Qed.

(* ---------- the two solvers (C110, C114) ---------- *)

Lemma same_told ob hv orders d i j orders' hv1 D1 hv2 D2 : all_steady hv (o_geom ob) ->
  build_S ob hv MS4 orders d i = Ok (hv1, D1) -> build_S ob hv MInk orders' j i = Ok (hv2, D2) ->
  told_widths D1 = told_widths D2 /\ told_mats D1 = told_mats D2 /\ s_shape_eps D1 = s_shape_eps D2 /\ s_size D1 = s_size D2 /\ forall l, told_regions D1 l = told_regions D2 l.
Proof.
  intros HS H1 H2. destruct (build_S_told _ _ _ _ _ _ _ _ H1) as (loc1 & soc1 & A1 & A2 & A3 & _ & A5 & A6 & A7 & _).
  destruct (build_S_told _ _ _ _ _ _ _ _ H2) as (loc2 & soc2 & B1 & B2 & B3 & _ & B5 & B6 & B7 & _).
  assert (loc1 = loc2) by congruence. assert (soc1 = soc2) by congruence. subst loc2 soc2. repeat (split; [congruence|]). intros l.
  assert (L : length (s_layers D1) = length (s_layers D2)). { transitivity (length (told_widths D1)); [unfold told_widths; rewrite map_length; auto|]. rewrite A6, <- B6. unfold told_widths. apply map_length. }
  destruct (build_S_shapes ob hv hv MS4 _ _ _ _ _ ltac:(intros Q; discriminate) (heq_refl hv) H1) as [_ S1].
  destruct (build_S_shapes ob hv hv MInk _ _ _ _ _ ltac:(intros _; exact HS) (heq_refl hv) H2) as [_ S2].
  destruct (Nat.lt_ge_cases l (length (s_layers D1))) as [Hl|Hl].
  - specialize (S1 l Hl). rewrite L in Hl. specialize (S2 l Hl). rewrite <- S2 in S1. revert S1. generalize (told_regions D1 l) (told_regions D2 l). clear. intros a.
    induction a as [|x a IH]; intros [|y b] H; try discriminate; auto. cbn [map] in H. injection H as <- H. f_equal. auto.
  - unfold told_regions. rewrite !nth_overflow by (rewrite map_length; lia). auto.
Qed.

Lemma run_first_err {X} (f : (nat -> vlist) -> nat -> res ((nat -> vlist) * X)) hv n e : f hv 0%nat = Err e -> (0 < n)%nat -> run_wl f hv (seq 0 n) = Err e.
Proof. intros H Hn. destruct n; [lia|]. cbn [seq run_wl]. rewrite H. auto. Qed.

Lemma no_user_options W SV strict o ob h pol : coherent W ob -> o_user ob = None -> p_meth o = MS4 -> process_pol (p_pol o) = Ok pol -> p_wl o <> [] -> length (p_wl o) = length (o_wl ob) ->
  calculate W SV strict o (ob, h) = Err TypeError.
Proof.
  intros C Hu Hm Hp Hw HL. unfold calculate. cbn [fst snd]. rewrite Hp. destruct (wl_refreshed W strict o ob HL) as (rf & Er & Ew). rewrite Er. cbn [rbind]. rewrite Hm. cbn [rbind].
  destruct (refresh_keeps _ _ _ _ _ Er C) as ((C1 & C2 & _) & B & _). destruct B as (_ & _ & _ & _ & _ & B6).
  rewrite (run_first_err _ _ _ TypeError); auto; [|destruct (p_wl o); [congruence|simpl; lia]].
  unfold structure_wl, build_S. rewrite Hm, C1, C2, Ew. destruct (p_wl o) as [|x l]; [congruence|]. cbn [map].
  change (Z.of_nat 0) with 0%Z. rewrite !(py_index_ok _ 0 []) by (cbn [length]; lia). cbn [rbind]. unfold initialise_S. rewrite B6, Hu. auto.
Qed.

Lemma polygon_angle_differs : exists hv g c1 c2, region_S4 hv g = Ok [c1] /\ snd (region_ink hv g) = [c2] /\ drawn c1 <> drawn c2 /\ wanted hv g = Some (drawn c1).
Proof.
  exists (fun _ => mk_vlist true [(1, 0); (0, 0); (2, 1)]), (Polygon (Some (0, 0)) (Some 180) 0). do 2 eexists. split; [reflexivity|]. split; [reflexivity|]. split; [|reflexivity].
  cbn [drawn map v_pts add2 fst snd]. intros E. injection E as E _ _ _ _ _. cbn [turn shift fst snd] in E. unfold turn, shift in E. cbn [fst snd] in E.
  replace (180 * PI / 180) with PI in E by field. rewrite cos_PI, sin_PI in E. lra.
Qed.

(* ---------- wrong number of widths (C111) ---------- *)

Lemma too_many_widths ob hv m orders d i ws : length (o_geom ob) = (length (o_stack ob) + 2)%nat -> (length (o_stack ob) < length ws)%nat ->
  forall r, build_S (obj_set_widths ws ob) hv m orders d i <> Ok r.
Proof.
  intros Hg Hn [hv' D] H. destruct (build_S_told _ _ _ _ _ _ _ _ H) as (loc & soc & _ & _ & _ & _ & _ & _ & _ & _ & K & _).
  cbn [obj_set_widths o_widths o_geom length] in K. rewrite app_length, map_length in K. simpl in K. lia.
Qed.

Lemma too_few_widths W ob hv m orders d i ws hv' D x : coherent W ob -> nth_error (o_wl ob) i = Some x -> (length ws < length (o_stack ob))%nat ->
  build_S (obj_set_widths ws ob) hv m orders d i = Ok (hv', D) ->
  told_mats D = o_incid ob x :: map (fun l => ol_eps l x) (firstn (length ws + 1) (o_stack ob)) /\ has_widths ws D.
Proof.
  intros (C1 & _) Hx Hn H. destruct (build_S_told _ _ _ _ _ _ _ _ H) as (loc & soc & A1 & _ & _ & _ & _ & A6 & A7 & _).
  cbn [obj_set_widths o_layers_oc o_widths] in *. rewrite C1, (map_nth_error _ _ _ Hx) in A1. injection A1 as <-. split.
  - rewrite A7. cbn [length]. rewrite app_length, map_length. cbn [length firstn]. f_equal. replace (length ws + 1)%nat with (length ws + 1)%nat by auto.
    rewrite firstn_app, map_length. replace (length ws + 1 - length (o_stack ob))%nat with 0%nat by lia. cbn [firstn]. rewrite app_nil_r. apply firstn_map.
  - unfold has_widths. rewrite A6. apply thickness_stack.
Qed.

(* ---------- the attribute width (C115) ---------- *)

Definition width_ok (ob : obj) : Prop := o_width ob = rsum (inner (o_widths ob)) / 10 ^ 9.
Lemma refresh_width W strict o ob rf : refresh W strict o ob = Ok rf -> width_ok ob -> width_ok (snd rf).
Proof. unfold refresh. intros H K. bok H. injection H as <-. cbn [snd]. destruct a; auto. unfold width_ok, update_oc. reflexivity. Qed.
Lemma calc_width W SV strict o st ob' h' a : calculate W SV strict o st = Ok (ob', h', a) -> width_ok (fst st) -> width_ok ob'.
Proof. intros H K. destruct (calculate_parts _ _ _ _ _ _ _ _ H) as (pol & rf & out & _ & Hr & _ & _ & -> & _). apply (refresh_width _ _ _ _ _ Hr K). Qed.

Lemma history_width W SV strict es : forall st st', history W SV strict es st = Ok st' -> (forall e, In e es -> widths_ok (fun _ => False) e) -> width_ok (fst st) -> width_ok (fst st').
Proof.
  induction es as [|e es IH]; intros st st' H He K; cbn [history] in H; [injection H as <-; auto|].
  apply rbind_ok in H. destruct H as (st1 & E & H). apply (IH _ _ H); [intros; apply He; right; auto|]. pose proof (He e (or_introl eq_refl)) as He'. clear He IH H.
  destruct e as [o|o|ws|sz|l gi f]; cbn [step widths_ok] in *.
  - bok E. injection E as <-. destruct a as [[ob' h'] a]. apply (calc_width _ _ _ _ _ _ _ _ E0 K).
  - bok E. injection E as <-. destruct a as [[ob' h'] a]. destruct (profile_parts _ _ _ _ _ _ _ _ E0) as (pol & rf & st2 & ratA & out & d & _ & Hr & _ & J & -> & _). cbn [fst].
    destruct J as [(_ & _ & ->)|(ob0 & a1 & J & Ho & _)]; auto. destruct st2 as [ob1 h1]. apply (calc_width _ _ _ _ _ _ _ _ J). cbn [fst]. destruct Ho as [-> | ->]; auto. apply (refresh_width _ _ _ _ _ Hr K).
  - contradiction.
  - injection E as <-. auto.
  - bok E. injection E as <-. unfold edit_geom in E0. bok E0. destruct a0; [|discriminate]. bok E0. injection E0 as <-. auto.
Qed.

(* ---------- a new material by edit_geom_list (C116) ---------- *)

Lemma set_nth_nth {A} (l : list A) a x y : nth_error l a = Some y -> nth_error (set_nth a x l) a = Some x.
Proof. intros H. apply nth_set_nth. apply nth_error_Some. congruence. Qed.

Lemma edit_new_material ob ob' layer gi f hv m orders d i : edit_geom layer gi f ob = Ok ob' -> (layer < length (o_widths ob))%nat ->
  (forall s, known (f s) = true /\ ~ In (sh_mat (f s)) (o_names ob)) -> forall r, build_S ob' hv m orders d i <> Ok r.
Proof.
  intros H Hl Hf [hv' D] HB. unfold edit_geom in H. apply rbind_ok in H. destruct H as (g & Eg & H). destruct g as [l|]; [|discriminate]. apply rbind_ok in H. destruct H as (s & Es & H). injection H as <-.
  apply py_index_nth in Eg. apply py_index_nth in Es. destruct (build_S_told _ _ _ _ _ _ _ _ HB) as (loc & soc & _ & _ & _ & _ & _ & KW & _ & _ & _ & K).
  cbn [o_widths o_geom o_names] in *.
  assert (LD : length (s_layers D) = length (o_widths ob)). { transitivity (length (told_widths D)); [unfold told_widths; rewrite map_length; auto|]. rewrite KW, map_length. auto. }
  destruct (nth_error (s_layers D) layer) as [[[e w] regs]|] eqn:En; [|apply nth_error_None in En; lia]. destruct (K _ _ _ _ En) as (g & Hg & HP).
  rewrite (set_nth_nth _ _ _ _ Eg) in Hg. injection Hg as <-. cbn [shapes_of] in HP. destruct (Hf s) as [Hk Hin].
  destruct (Forall2_In_l _ _ _ (f s) HP) as (r & _ & P & _). { apply filter_In. split; auto. apply (nth_error_In _ gi). eapply set_nth_nth. eauto. }
  apply Hin. apply index_of_ok in P. apply nth_error_In in P. auto.
Qed.
