From Coq Require Import Reals List ZArith Bool Lia Lra Sorting.Sorted.
From Verif Require Import Base Lib Model_TMM Proof_TMM3 Model_Absorb Spec_Absorb Proof_Absorb Proof_Absorb2 Proof_Absorb3.
Import ListNotations.
Open Scope R_scope.

Section Rt2.
  Variables (o : aopts) (fi : nat -> nat -> R -> R) (fb : nat -> R -> R) (ni np : nat -> nat).
  Let n := ao_nwl o.
  Let d9 := ao_d o * 10 ^ 9.
  Let db := ao_db o.
  Hypothesis Hd : 0 < ao_d o.
  Hypothesis Hdb : 0 < ao_db o.

  Lemma d9_pos : 0 < d9.
  Proof. unfold d9. apply Rmult_lt_0_compat; [auto|apply pow_lt; lra]. Qed.
  Lemma d9_back m : INR m * d9 / 10 ^ 9 = INR m * ao_d o.
  Proof. unfold d9. field. Qed.

  Definition pts_ok (i : nat) (s : surf) : Prop := forall ws, fst s = Some ws -> 0 <= rsum ws /\ n_points (rsum ws) d9 0 (ni i).
  Definition bulk_ok (i : nat) (w : R) : Prop := (np i < np (S i))%nat /\ INR (np (S i) - 1 - np i) * db < w.

  Lemma stretch_sorted C c a : StronglySorted Rlt (map (fun x => x + a) (stretch db C c)).
  Proof.
    unfold stretch. rewrite map_map. revert C. induction c as [|c IH]; intros C; cbn [seq map]; constructor; auto.
    apply Forall_forall. intros x Hx. apply in_map_iff in Hx. destruct Hx as (m & <- & Hm). apply in_seq in Hm.
    apply Rplus_lt_compat_r. apply Rmult_lt_compat_r; [exact Hdb|]. apply lt_INR. lia.
  Qed.

  Lemma s_nodes_range i ws p cum nd : pts_ok i (Some ws, p) -> In nd (s_nodes o fi ni i ws p cum) -> cum <= fst nd < cum + rsum ws * / 10 ^ 9.
  Proof.
    intros H Hin. destruct (H ws eq_refl) as [Hw Hn]. unfold s_nodes in Hin. apply in_map_iff in Hin. destruct Hin as (x & <- & Hx).
    apply in_mults in Hx. destruct Hx as (m & Hm & ->). cbn [fst].
    destruct (points_range _ _ _ _ m d9_pos (Rle_refl 0) Hn Hm) as [A B].
    assert (P : 0 < / 10 ^ 9) by (apply Rinv_0_lt_compat, pow_lt; lra).
    assert (A' : 0 * / 10 ^ 9 <= INR m * d9 * / 10 ^ 9) by (apply Rmult_le_compat_r; lra).
    assert (B' : INR m * d9 * / 10 ^ 9 < rsum ws * / 10 ^ 9) by (apply Rmult_lt_compat_r; lra).
    unfold Rdiv. fold d9. lra.
  Qed.
  Lemma s_nodes_sorted i ws p cum : StronglySorted Rlt (map fst (s_nodes o fi ni i ws p cum)).
  Proof.
    unfold s_nodes. rewrite map_map. cbn [fst]. apply (sorted_map_ext (fun x => x * / 10 ^ 9 + cum)); [intros; unfold Rdiv; lra|].
    apply mults_sorted; [apply d9_pos|apply Rinv_0_lt_compat, pow_lt; lra].
  Qed.
  Lemma b_nodes_range i w cum nd : bulk_ok i w -> In nd (b_nodes o fb np i cum) -> cum <= fst nd < cum + w.
  Proof.
    intros [B1 B2] H. unfold b_nodes, stretch in H. apply in_map_iff in H. destruct H as (x & <- & H). apply in_map_iff in H. destruct H as (m & <- & H).
    apply in_seq in H. cbn [fst]. fold db.
    assert (E : INR m = INR (np i) + INR (m - np i)) by (rewrite <- plus_INR; f_equal; lia). rewrite E.
    assert (Hdb' : 0 < db) by exact Hdb. assert (0 <= INR (m - np i) * db) by (apply Rmult_le_pos; [apply pos_INR|lra]).
    assert (INR (m - np i) * db <= INR (np (S i) - 1 - np i) * db) by (apply Rmult_le_compat_r; [lra|apply le_INR; lia]). lra.
  Qed.
  Lemma b_nodes_sorted i cum : StronglySorted Rlt (map fst (b_nodes o fb np i cum)).
  Proof.
    unfold b_nodes. rewrite map_map. cbn [fst]. apply (sorted_map_ext (fun x => x + (cum - INR (np i) * db))); [intros; unfold db; lra|].
    apply stretch_sorted.
  Qed.

  Lemma rt_sorted : forall surfs bs i cum, (forall j s, nth_error surfs j = Some s -> pts_ok (i + j) s) ->
    (forall j w, nth_error bs j = Some w -> bulk_ok (i + j) w) ->
    let l := map fst (concat (rt_nodes o fi fb ni np surfs bs i cum)) in
    StronglySorted Rlt l /\ forall x, In x l -> cum <= x < cum + rsum (map ifw surfs) + rsum bs.
  Proof.
    assert (P9 : 0 < / 10 ^ 9) by (apply Rinv_0_lt_compat, pow_lt; lra).
    assert (Hbw : forall i w, bulk_ok i w -> 0 <= w).
    { intros i w [_ B]. assert (0 <= INR (np (S i) - 1 - np i) * db) by (apply Rmult_le_pos; [apply pos_INR|unfold db; lra]). lra. }
    induction surfs as [|[ly p] surfs IH]; intros bs i cum Hs Hb.
    { simpl. split; [constructor|tauto]. }
    cbn [rt_nodes]. set (cum1 := match ly with None => cum | Some ws => cum + rsum ws * / 10 ^ 9 end).
    assert (Hs0 : pts_ok i (ly, p)). { rewrite <- (Nat.add_0_r i). apply Hs. auto. }
    assert (C1 : cum <= cum1).
    { unfold cum1. destruct ly as [ws|]; [|lra]. destruct (Hs0 ws eq_refl) as [A _]. assert (0 <= rsum ws * / 10 ^ 9); [|lra].
      apply Rmult_le_pos; auto. lra. }
    assert (C2 : cum1 = cum + ifw (ly, p)). { unfold cum1, ifw, fst, Rdiv. destruct ly; lra. }
    assert (Hs' : forall j s, nth_error surfs j = Some s -> pts_ok (S i + j) s).
    { intros j s Hj. replace (S i + j)%nat with (i + S j)%nat by lia. apply Hs. auto. }
    set (rest := match bs with [] => rt_nodes o fi fb ni np surfs [] (S i) cum1
        | w :: bs' => [b_nodes o fb np i cum1] ++ rt_nodes o fi fb ni np surfs bs' (S i) (cum1 + w) end).
    assert (Hw : forall l, (forall s, In s l -> exists j, pts_ok j s) -> 0 <= rsum (map ifw l)).
    { induction l as [|s l IHl]; intros H; cbn [map rsum]; [lra|]. assert (0 <= ifw s).
      { destruct (H s (or_introl eq_refl)) as [j Hj]. unfold ifw. destruct (fst s) eqn:Es; [|lra]. destruct (Hj l0 Es). unfold Rdiv. apply Rmult_le_pos; lra. }
      specialize (IHl ltac:(intros; apply H; right; auto)). lra. }
    assert (Hw0 : 0 <= rsum (map ifw surfs)).
    { apply Hw. intros s Hin. apply In_nth_error in Hin. destruct Hin as [j Hj]. eauto. }
    assert (Hb0 : 0 <= rsum bs).
    { clear - Hb Hbw. revert i Hb. induction bs as [|w bs IHb]; intros i Hb; cbn [rsum]; [lra|].
      assert (0 <= w). { apply (Hbw i). rewrite <- (Nat.add_0_r i). apply Hb. auto. }
      assert (0 <= rsum bs); [|lra]. apply (IHb (S i)). intros j w' Hj. replace (S i + j)%nat with (i + S j)%nat by lia. apply Hb. auto. }
    assert (Hrest : StronglySorted Rlt (map fst (concat rest)) /\ forall x, In x (map fst (concat rest)) -> cum1 <= x < cum1 + rsum (map ifw surfs) + rsum bs).
    { unfold rest. destruct bs as [|w bs]; [apply IH; auto; intros [|j] w Hj; discriminate|].
      cbn [app concat]. rewrite map_app.
      assert (B0 : bulk_ok i w). { rewrite <- (Nat.add_0_r i). apply Hb. auto. }
      assert (W0 := Hbw i w B0).
      destruct (IH bs (S i) (cum1 + w)) as [I1 I2]; auto.
      { intros j s Hj. replace (S i + j)%nat with (i + S j)%nat by lia. apply Hb; auto. }
      assert (0 <= rsum bs).
      { clear - Hb Hbw. assert (Hb' : forall j w', nth_error bs j = Some w' -> bulk_ok (S i + j) w').
        { intros j w' Hj. replace (S i + j)%nat with (i + S j)%nat by lia. apply Hb. auto. }
        clear Hb. generalize (S i) Hb'. clear Hb' i. induction bs as [|v bs IHb]; intros i Hb; cbn [rsum]; [lra|].
        assert (0 <= v). { apply (Hbw i). rewrite <- (Nat.add_0_r i). apply Hb. auto. }
        assert (0 <= rsum bs); [|lra]. apply (IHb (S i)). intros j w' Hj. replace (S i + j)%nat with (i + S j)%nat by lia. apply Hb. auto. }
      cbn [rsum]. split.
      - apply sorted_app; [apply b_nodes_sorted|auto|]. intros x y Hx Hy. apply in_map_iff in Hx. destruct Hx as (nd & <- & Hx).
        apply (b_nodes_range i w) in Hx; auto. specialize (I2 y Hy). lra.
      - intros x Hx. apply in_app_or in Hx. destruct Hx as [Hx|Hx]; [|specialize (I2 x Hx); lra].
        apply in_map_iff in Hx. destruct Hx as (nd & <- & Hx). apply (b_nodes_range i w) in Hx; auto. lra. }
    destruct Hrest as [R1 R2]. cbv zeta. rewrite concat_app, map_app. cbn [map rsum]. split.
    - destruct ly as [ws|]; [|exact R1]. cbn [concat]. rewrite app_nil_r.
      apply sorted_app; [apply s_nodes_sorted|auto|]. intros x y Hx Hy. apply in_map_iff in Hx. destruct Hx as (nd & <- & Hx).
      apply s_nodes_range in Hx; auto. specialize (R2 y Hy). unfold cum1 in R2. lra.
    - intros x Hx. apply in_app_or in Hx. destruct Hx as [Hx|Hx]; [|specialize (R2 x Hx); lra].
      destruct ly as [ws|]; [|destruct Hx]. cbn [concat] in Hx. rewrite app_nil_r in Hx.
      apply in_map_iff in Hx. destruct Hx as (nd & <- & Hx). apply s_nodes_range in Hx; auto. unfold cum1 in C2. lra.
  Qed.

  (* where surface j and the bulk below it begin, counted from the first of surfs *)
  Definition above (surfs : list surf) (bs : list R) (j : nat) : R := rsum (map ifw (firstn j surfs)) + rsum (firstn j bs).
  Definition above_b (surfs : list surf) (bs : list R) (j : nat) : R := rsum (map ifw (firstn (S j) surfs)) + rsum (firstn j bs).

  Definition s_case (surfs : list surf) (bs : list R) (i : nat) (cum : R) (w : nat) (x v : R) : Prop :=
    exists j ws p m, nth_error surfs j = Some (Some ws, p) /\ (m < ni (i + j))%nat /\
      x = cum + above surfs bs j + INR m * ao_d o /\
      v = (if anyin ws (layers_of p) (INR m * d9) then 10 ^ 9 * fi (i + j) w (INR m * d9) else 0).
  Definition b_case (surfs : list surf) (bs : list R) (i : nat) (cum : R) (w : nat) (x v : R) : Prop :=
    exists j m, (j < length bs)%nat /\ (np (i + j) <= m < np (S (i + j)))%nat /\
      x = cum + above_b surfs bs j + INR (m - np (i + j)) * db /\
      v = 10 ^ 9 * fb w (INR m * db).

  Lemma above_S ly p surfs c cs j : above ((ly, p) :: surfs) (c :: cs) (S j) = ifw (ly, p) + c + above surfs cs j.
  Proof. unfold above. cbn [map firstn rsum]. lra. Qed.
  Lemma above_bS ly p surfs c cs j : above_b ((ly, p) :: surfs) (c :: cs) (S j) = ifw (ly, p) + c + above_b surfs cs j.
  Proof. unfold above_b. cbn [map firstn rsum]. lra. Qed.
  Lemma above_0 surfs cs : above surfs cs 0 = 0.
  Proof. unfold above. simpl. lra. Qed.
  Lemma above_b0 ly p surfs cs : above_b ((ly, p) :: surfs) cs 0 = ifw (ly, p).
  Proof. unfold above_b. cbn [map firstn rsum]. lra. Qed.

  Lemma rt_in w : forall surfs bs i cum x v, length surfs = S (length bs) ->
    (forall j, (j < length bs)%nat -> (np (i + j) <= np (S (i + j)))%nat) ->
    (exists nd, In nd (concat (rt_nodes o fi fb ni np surfs bs i cum)) /\ fst nd = x /\ snd nd w = v) <->
    s_case surfs bs i cum w x v \/ b_case surfs bs i cum w x v.
  Proof.
    induction surfs as [|[ly p] surfs IH]; intros cs i cum x v Hl Hnp; [discriminate|].
    cbn [rt_nodes]. set (cum1 := match ly with None => cum | Some ws => cum + rsum ws * / 10 ^ 9 end).
    assert (C1 : cum1 = cum + ifw (ly, p)). { unfold cum1, ifw, fst, Rdiv. destruct ly; lra. }
    cbn [length] in Hl.
    (* first surface *)
    assert (F : (exists nd, In nd (concat (match ly with None => [] | Some ws => [s_nodes o fi ni i ws p cum] end)) /\ fst nd = x /\ snd nd w = v) <->
       exists ws m, ly = Some ws /\ (m < ni i)%nat /\ x = cum + INR m * ao_d o /\
         v = (if anyin ws (layers_of p) (INR m * d9) then 10 ^ 9 * fi i w (INR m * d9) else 0)).
    { destruct ly as [ws|]; cbn [concat]; [rewrite app_nil_r|].
      - unfold s_nodes. split.
        + intros (nd & H & <- & <-). apply in_map_iff in H. destruct H as (y & <- & H). apply in_mults in H. destruct H as (m & Hm & ->).
          cbn [fst snd]. exists ws, m. split; auto. split; auto. fold d9. rewrite d9_back. split; [lra|auto].
        + intros (ws' & m & E & Hm & -> & ->). injection E as <-. eexists. split; [apply in_map; apply in_mults; exists m; split; [exact Hm|reflexivity]|].
          cbn [fst snd]. fold d9. rewrite d9_back. split; [lra|auto].
      - split; [intros (nd & [] & _)|intros (ws & m & E & _); discriminate]. }
    assert (Split : forall a b : list (R * (nat -> R)), (exists nd, In nd (a ++ b) /\ fst nd = x /\ snd nd w = v) <->
       (exists nd, In nd a /\ fst nd = x /\ snd nd w = v) \/ (exists nd, In nd b /\ fst nd = x /\ snd nd w = v)).
    { intros a b. split.
      - intros (nd & H & E). apply in_app_or in H. destruct H; [left|right]; exists nd; auto.
      - intros [(nd & H & E)|(nd & H & E)]; exists nd; split; auto; apply in_or_app; auto. }
    rewrite concat_app, Split, F. clear F. destruct cs as [|c cs].
    - assert (surfs = []) by (destruct surfs; [auto|discriminate]). subst surfs. cbn [rt_nodes concat]. split.
      + intros [(ws & m & E & Hm & Hx & Hv)|(nd & [] & _)]. subst ly. left. exists 0%nat, ws, p, m. rewrite Nat.add_0_r, above_0.
        split; auto. split; auto. split; [lra|auto].
      + intros [(j & ws & q & m & E & Hm & Hx & Hv)|(j & m & E & _)]; [|cbn [length] in E; lia].
        left. destruct j as [|j]; [|destruct j; discriminate]. cbn [nth_error] in E. injection E as -> ->. rewrite Nat.add_0_r in Hm, Hv. rewrite above_0 in Hx.
        exists ws, m. split; auto. split; auto. split; [lra|auto].
    - cbn [app concat]. rewrite Split. rewrite IH.
      2:{ cbn [length] in Hl; lia. }
      2:{ intros j Hj. replace (S i + j)%nat with (i + S j)%nat by lia. apply Hnp. cbn [length]. lia. }
      split.
      + intros [(ws & m & E & Hm & Hx & Hv)|[(nd & H & <- & <-)|[(j & ws & q & m & E & Hm & Hx & Hv)|(j & m & E & Hm & Hx & Hv)]]].
        * subst ly. left. exists 0%nat, ws, p, m. rewrite Nat.add_0_r, above_0.
          split; auto. split; auto. split; [lra|auto].
        * right. unfold b_nodes, stretch in H. apply in_map_iff in H. destruct H as (y & <- & H). apply in_map_iff in H. destruct H as (m & <- & H).
          apply in_seq in H. exists 0%nat, m. rewrite Nat.add_0_r. cbn [length]. split; [lia|]. split; [specialize (Hnp 0%nat ltac:(cbn [length]; lia)); rewrite Nat.add_0_r in Hnp; lia|]. cbn [fst snd]. rewrite above_b0. fold db. split; auto.
          rewrite C1. assert (E : INR m = INR (np i) + INR (m - np i)) by (rewrite <- plus_INR; f_equal; lia). rewrite E at 1. lra.
        * left. exists (S j), ws, q, m. split; auto. replace (i + S j)%nat with (S i + j)%nat by lia. split; auto. split; auto.
          rewrite above_S. rewrite Hx, C1. lra.
        * right. exists (S j), m. replace (i + S j)%nat with (S i + j)%nat by lia. cbn [length]. split; [lia|]. split; auto. split; auto.
          rewrite above_bS, Hx, C1. lra.
      + intros [(j & ws & q & m & E & Hm & Hx & Hv)|(j & m & E & Hm & Hx & Hv)].
        * destruct j as [|j].
          -- cbn [nth_error] in E. injection E as -> ->. left. rewrite Nat.add_0_r in Hm, Hv. rewrite above_0 in Hx.
             exists ws, m. split; auto. split; auto. split; [lra|auto].
          -- right. right. left. exists j, ws, q, m. replace (S i + j)%nat with (i + S j)%nat by lia. split; auto. split; auto. split; auto.
             rewrite above_S in Hx. rewrite Hx, C1. lra.
        * destruct j as [|j].
          -- rewrite Nat.add_0_r in Hm, Hx. right. left. eexists. split.
             ++ unfold b_nodes, stretch. apply in_map. apply in_map. apply in_seq. split; [exact (proj1 Hm)|lia].
             ++ cbn [fst snd]. fold db. rewrite above_b0 in Hx. split; auto. rewrite Hx, C1.
                assert (Em : INR m = INR (np i) + INR (m - np i)) by (rewrite <- plus_INR; f_equal; lia). rewrite Em at 1. lra.
          -- right. right. right. exists j, m. replace (S i + j)%nat with (i + S j)%nat by lia. cbn [length] in E. split; [lia|]. split; auto.
             rewrite above_bS in Hx. split; auto. rewrite Hx, C1. lra.
  Qed.
End Rt2.

Lemma nodes_some o fi fb ni np surfs bs i cum : length surfs = S (length bs) -> existsb is_tmm (map to_surface surfs) = true ->
  rt_nodes o fi fb ni np surfs bs i cum <> [].
Proof.
  intros Hl Ht. destruct surfs as [|[ly p] surfs]; [discriminate|]. cbn [rt_nodes]. destruct ly as [ws|]; [discriminate|].
  destruct bs as [|c cs]; [|discriminate]. destruct surfs; [|discriminate]. discriminate Ht.
Qed.

Lemma rt_spec (o : aopts) (surfs : list surf) (widths : list R) (ifaces : list (option table)) (fi : nat -> nat -> R -> R) (fb : nat -> R -> R)
    (ni np : nat -> nat) :
  0 < ao_d o -> 0 < ao_db o -> length surfs = S (length widths) -> bulk_grid widths (ao_db o) np ->
  existsb is_tmm (map to_surface surfs) = true ->
  (forall i ws p, nth_error surfs i = Some (Some ws, p) -> 0 <= rsum ws /\ n_points (rsum ws) (ao_d o * 10 ^ 9) 0 (ni i) /\
     forall l, p = Some l -> valid_layers ws l /\
       exists t, nth_error ifaces i = Some (Some t) /\ starts_sampled (ao_nwl o) (fi i) (depths_in ws l (mults (ao_d o * 10 ^ 9) (ni i))) t) ->
  let st := mk_rt (map to_surface surfs) widths in
  exists g, absorption_rt (mk_rtres (sampled (ao_nwl o) fb (mults (ao_db o) (np (length widths)))) ifaces) st o = Ok g /\
    proper (ao_nwl o) g /\
    (forall x, In x (g_pos g) -> 0 <= x < rsum (map iface_width (rt_surfaces st)) + rsum widths) /\
    forall w, (w < ao_nwl o)%nat -> forall x v, node g w x v <->
      (exists i ws p m, nth_error surfs i = Some (Some ws, p) /\ (m < ni i)%nat /\ x = depth_of st i + INR m * ao_d o /\
         shown ws (layers_of p) (fi i w) (INR m * (ao_d o * 10 ^ 9)) v) \/
      (exists i m, (i < length widths)%nat /\ (np i <= m < np (S i))%nat /\ x = bulk_top st i + INR (m - np i) * ao_db o /\
         v = 10 ^ 9 * fb w (INR m * ao_db o)).
Proof.
  intros Hd Hdb Hl Hg Ht Hs st.
  set (nodes := rt_nodes o fi fb ni np surfs widths 0 0).
  assert (Z0 : np 0%nat = 0%nat).
  { destruct Hg as [G _]. destruct (G 0%nat ltac:(lia)) as [_ [E|E]]; auto. cbn [firstn rsum] in E.
    assert (0 <= INR (np 0%nat - 1) * ao_db o) by (apply Rmult_le_pos; [apply pos_INR|lra]). lra. }
  assert (Hp : rt_pieces o widths (mults (ao_db o) (np (length widths))) (mk_rtres (sampled (ao_nwl o) fb (mults (ao_db o) (np (length widths)))) ifaces)
      (length surfs) (map to_surface surfs) 0 0 0 = Ok (map (tab o) nodes)).
  { pose proof (rt_pieces_ok o fi fb ni np ifaces widths Hd Hdb Hg surfs widths [] 0%nat 0 (length surfs)) as Q. rewrite Z0 in Q. apply Q; auto.
    intros j [ly p] Hj ws E. cbn [fst] in E. subst ly. destruct (Hs j ws p Hj) as (A & B & D). cbn [plus snd]. split; auto. }
  exists (gen_of (ao_nwl o) (concat nodes)).
  assert (P6 : 0 < 10 ^ 6) by (apply pow_lt; lra).
  assert (Hsort := rt_sorted o fi fb ni np Hd Hdb surfs widths 0 0).
  destruct Hsort as [So1 So2].
  { intros j [ly p] Hj ws E. cbn [fst] in E. subst ly. destruct (Hs j ws p Hj) as (A & B & D). auto. }
  { intros j w Hj. assert (Hj' : (j < length widths)%nat) by (apply nth_error_Some; congruence). destruct Hg as [G1 G2].
    split; [apply G2; auto|]. destruct (G1 j ltac:(lia)) as [A _]. destruct (G1 (S j) ltac:(lia)) as [_ B].
    specialize (G2 j Hj'). cbn [plus] in *. destruct B as [B|B]; [lia|].
    assert (Ef : rsum (firstn (S j) widths) = rsum (firstn j widths) + w).
    { clear - Hj. revert j Hj. induction widths as [|a l IHl]; intros [|j] Hj; try discriminate; cbn [nth_error] in Hj.
      - injection Hj as ->. cbn [firstn rsum]. lra.
      - cbn [firstn rsum]. specialize (IHl j Hj). cbn [firstn] in IHl. rewrite IHl. lra. }
    assert (Ei : INR (np (S j) - 1) = INR (np j) + INR (np (S j) - 1 - np j)) by (rewrite <- plus_INR; f_equal; lia).
    rewrite Ei in B. lra. }
  split; [|split; [|split]].
  - unfold absorption_rt, st. cbn [rt_widths rt_surfaces]. rewrite map_length.
    assert (G : map (fun x => x / 10 ^ 6) (arange0 (rsum widths * 10 ^ 6) (ao_db o * 10 ^ 6)) = mults (ao_db o) (np (length widths))).
    { replace (rsum widths * 10 ^ 6) with (rsum widths * 10 ^ 6 - 0) by lra.
      rewrite (arange_mults _ _ 0 0 (np (length widths))).
      - unfold mults. rewrite map_map. apply map_ext. intros. field.
      - apply Rmult_lt_0_compat; auto.
      - lra.
      - destruct Hg as [G1 _]. destruct (G1 (length widths) ltac:(lia)) as [A B]. rewrite firstn_all in A, B.
        split; [rewrite <- Rmult_assoc; apply Rmult_le_compat_r; lra|]. destruct B as [B|B]; auto. right.
        rewrite Rminus_0_r in *. rewrite <- Rmult_assoc. apply Rmult_lt_compat_r; lra. }
    rewrite G, Hp. cbn [rbind].
    pose proof (hstack_rows (ao_nwl o) (map (fun nds i => map (fun nd : R * (nat -> R) => snd nd i) nds) nodes)) as Hh.
    rewrite map_map in Hh. rewrite !map_map. unfold tab. cbn [snd fst].
    etransitivity; [exact (f_equal (fun q => rbind q _) (Hh ltac:(intros E; apply map_eq_nil in E; revert E; apply nodes_some; auto)))|].
    cbn [rbind]. rewrite <- interp_gen. f_equal.
    + rewrite <- concat_map. reflexivity.
    + apply rows_ext. intros i _. rewrite map_map, <- concat_map. reflexivity.
  - apply gen_proper. exact So1.
  - intros x Hx. cbn [gen_of g_pos] in Hx. specialize (So2 x Hx). unfold st. cbn [rt_surfaces]. rewrite map_map.
    change (map (fun x0 => iface_width (to_surface x0)) surfs) with (map ifw surfs). lra.
  - intros w Hw x v. rewrite gen_node by auto. unfold nodes.
    rewrite rt_in; auto. 2:{ intros j Hj. destruct Hg as [_ G2]. specialize (G2 j Hj). cbn [plus]. lia. }
    assert (Ab : forall j, above surfs widths j = depth_of st j).
    { intros j. unfold above, depth_of, st. cbn [rt_surfaces rt_widths]. rewrite firstn_map, map_map. reflexivity. }
    assert (Ab' : forall j, above_b surfs widths j = bulk_top st j).
    { intros j. unfold above_b, bulk_top, st. cbn [rt_surfaces rt_widths]. rewrite firstn_map, map_map. reflexivity. }
    unfold s_case, b_case. cbn [plus]. split; (intros [(i & ws & p & m & E & Hm & Hx & Hv)|(i & m & E & Hm & Hx & Hv)]; [left|right]).
    + exists i, ws, p, m. rewrite Ab in Hx. split; auto. split; auto. split; [lra|].
      apply shown_if; auto. destruct (Hs i ws p E) as (_ & _ & D). destruct p as [l|]; [apply (D l eq_refl)|intros k []].
    + exists i, m. rewrite Ab' in Hx. split; auto. split; auto. split; [lra|auto].
    + exists i, ws, p, m. rewrite Ab. split; auto. split; auto. split; [lra|].
      apply shown_if in Hv; auto. destruct (Hs i ws p E) as (_ & _ & D). destruct p as [l|]; [apply (D l eq_refl)|intros k []].
    + exists i, m. rewrite Ab'. split; auto. split; auto. split; [lra|auto].
Qed.
