From Coq Require Import Reals List ZArith Bool Lia Lra Sorting.Sorted.
From Verif Require Import Base Lib Model_TMM Proof_TMM3 Model_Absorb Spec_Absorb Proof_Absorb Proof_Absorb2.
From Verif Require Proof_RayProfile.
Import ListNotations.
Open Scope R_scope.

(* ---------- grid points of a bulk layer ---------- *)

Definition stretch (d : R) (C c : nat) : list R := map (fun m => INR m * d) (seq C c).

Lemma filter_all {A} (f : A -> bool) l : (forall x, In x l -> f x = true) -> filter f l = l.
Proof. induction l; intros H; auto. cbn [filter]. rewrite (H a) by (left; auto). f_equal. apply IHl. intros; apply H; right; auto. Qed.

Lemma bulk_points d s e C E N : 0 < d -> n_points s d 0 C -> n_points e d 0 E -> (C <= E <= N)%nat ->
  filter (inside s e) (mults d N) = stretch d C (E - C).
Proof.
  intros Hd [S1 S2] [E1 E2] HN. unfold mults, stretch. replace N with (C + ((E - C) + (N - E)))%nat by lia.
  rewrite !seq_app, !map_app, !filter_app. cbn [plus].
  rewrite (filter_none _ (map _ (seq 0 C))).
  - rewrite (filter_all _ (map _ (seq C (E - C)))).
    + rewrite (filter_none _ (map _ (seq (C + (E - C)) _))); [apply app_nil_r|].
      intros x Hx. apply in_map_iff in Hx. destruct Hx as (m & <- & Hm). apply in_seq in Hm.
      assert (INR E <= INR m) by (apply le_INR; lia). apply Rmult_le_compat_r with (r := d) in H; [|lra].
      unfold inside. rewrite (proj2 (Rltb_false _ _)) by lra. apply andb_false_r.
    + intros x Hx. apply in_map_iff in Hx. destruct Hx as (m & <- & Hm). apply in_seq in Hm.
      assert (INR C <= INR m) by (apply le_INR; lia). apply Rmult_le_compat_r with (r := d) in H; [|lra].
      destruct E2 as [->|E2]; [lia|].
      assert (H0 : INR m <= INR (E - 1)) by (apply le_INR; lia). apply Rmult_le_compat_r with (r := d) in H0; [|lra].
      apply inside_true. lra.
  - intros x Hx. apply in_map_iff in Hx. destruct Hx as (m & <- & Hm). apply in_seq in Hm.
    destruct S2 as [->|S2]; [lia|].
    assert (H0 : INR m <= INR (C - 1)) by (apply le_INR; lia). apply Rmult_le_compat_r with (r := d) in H0; [|lra].
    unfold inside. rewrite (proj2 (Rleb_false _ _)) by lra. auto.
Qed.

Lemma fold_min l : forall x, (forall y, In y l -> x <= y) -> fold_left Rmin l x = x.
Proof.
  induction l as [|a l IH]; intros x H; auto. cbn [fold_left]. rewrite Rmin_left by (apply H; left; auto). apply IH. intros; apply H; right; auto.
Qed.
Lemma min_stretch d C c : 0 < d -> (1 <= c)%nat -> np_min (stretch d C c) = Ok (INR C * d).
Proof.
  intros Hd Hc. unfold stretch. destruct c as [|c]; [lia|]. cbn [seq map np_min]. rewrite fold_min; auto.
  intros y Hy. apply in_map_iff in Hy. destruct Hy as (m & <- & Hm). apply in_seq in Hm. apply Rmult_le_compat_r; [lra|]. apply le_INR. lia.
Qed.
Lemma stretch_length d C c : length (stretch d C c) = c.
Proof. unfold stretch. rewrite map_length, seq_length. auto. Qed.

Lemma cols_stretch n (f : nat -> R -> R) d N C c : (C + c <= N)%nat -> cols C c (sampled n f (mults d N)) = rows n (fun i => map (f i) (stretch d C c)).
Proof.
  intros H. unfold cols, sampled, rows. rewrite map_map. apply map_ext. intros i.
  unfold mults, stretch. rewrite skipn_map, firstn_map, skipn_map, firstn_map. do 2 f_equal.
  replace N with (C + (c + (N - C - c)))%nat by lia. rewrite seq_app, skipn_app, seq_length, Nat.sub_diag.
  rewrite skipn_all2 by (rewrite seq_length; auto). cbn [app skipn plus]. rewrite seq_app, firstn_app, seq_length, Nat.sub_diag, firstn_O, app_nil_r.
  apply firstn_all2. rewrite seq_length. auto.
Qed.

(* ---------- rt_structure with lookup tables ---------- *)

Definition ifw (s : surf) : R := match fst s with Some ws => rsum ws / 10 ^ 9 | None => 0 end.

Section Rt.
  Variables (o : aopts) (fi : nat -> nat -> R -> R) (fb : nat -> R -> R) (ni np : nat -> nat) (ifaces : list (option table))
    (widths : list R).
  Let n := ao_nwl o.
  Let d9 := ao_d o * 10 ^ 9.
  Let db := ao_db o.
  Let N := np (length widths).
  Let res := mk_rtres (sampled n fb (mults db N)) ifaces.
  Hypothesis Hd : 0 < ao_d o.
  Hypothesis Hdb : 0 < ao_db o.
  Hypothesis Hg : bulk_grid widths db np.

  Definition tab (nodes : list (R * (nat -> R))) : list R * table := (map fst nodes, rows n (fun i => map (fun nd => snd nd i) nodes)).
  Definition s_nodes (i : nat) (ws : list R) (p : option (list nat)) (cum : R) : list (R * (nat -> R)) :=
    map (fun x => (x / 10 ^ 9 + cum, fun w => if anyin ws (layers_of p) x then 10 ^ 9 * fi i w x else 0)) (mults d9 (ni i)).
  Definition b_nodes (i : nat) (cum : R) : list (R * (nat -> R)) :=
    map (fun x => (x - INR (np i) * db + cum, fun w => 10 ^ 9 * fb w x)) (stretch db (np i) (np (S i) - np i)).
  Fixpoint rt_nodes (surfs : list surf) (bs : list R) (i : nat) (cum : R) : list (list (R * (nat -> R))) :=
    match surfs with
    | [] => []
    | (ly, p) :: r =>
        let cum1 := match ly with None => cum | Some ws => cum + rsum ws * / 10 ^ 9 end in
        match ly with None => [] | Some ws => [s_nodes i ws p cum] end ++
        match bs with
        | [] => rt_nodes r [] (S i) cum1
        | w :: bs' => [b_nodes i cum1] ++ rt_nodes r bs' (S i) (cum1 + w)
        end
    end.

  Definition surf_ok_at (i : nat) (s : surf) : Prop :=
    forall ws, fst s = Some ws -> n_points (rsum ws) d9 0 (ni i) /\
      forall l, snd s = Some l -> valid_layers ws l /\
        exists t, nth_error ifaces i = Some (Some t) /\ starts_sampled n (fi i) (depths_in ws l (mults d9 (ni i))) t.

  Lemma py_nth {A} (l : list A) i x : nth_error l i = Some x -> py_index l (Z.of_nat i) = Ok x.
  Proof.
    intros H. unfold py_index. destruct (Z.ltb_spec (Z.of_nat i) 0); [lia|]. destruct (Z.ltb_spec (Z.of_nat i) 0); [lia|].
    rewrite Nat2Z.id, H. auto.
  Qed.

  Lemma rt_surface_ok i ws p cum : surf_ok_at i (Some ws, p) ->
    rt_surface o res i ws (sf_prof (to_surface (Some ws, p))) cum = Ok (tab (s_nodes i ws p cum)).
  Proof.
    intros H. destruct (H ws eq_refl) as [Hn Hl]. unfold rt_surface. fold d9 n.
    assert (Hd9 : 0 < d9) by (apply Rmult_lt_0_compat; [auto|apply pow_lt; lra]).
    replace (arange0 (rsum ws) d9) with (mults d9 (ni i)).
    2:{ rewrite <- (arange_mults (rsum ws) d9 0 0 (ni i)); auto; [f_equal; lra|lra]. }
    cbn [to_surface sf_prof snd]. unfold tab, s_nodes. rewrite map_map.
    assert (F : rows n (fun i0 => map (fun nd : R * (nat -> R) => snd nd i0)
      (map (fun x => (x / 10 ^ 9 + cum, fun w => if anyin ws (layers_of p) x then 10 ^ 9 * fi i w x else 0)) (mults d9 (ni i)))) =
      rows n (fun w => map (fun x => if anyin ws (layers_of p) x then 10 ^ 9 * fi i w x else 0) (mults d9 (ni i)))).
    { apply rows_ext. intros. rewrite map_map. auto. }
    rewrite F. destruct p as [l|]; cbn [option_map layers_of].
    - destruct (Hl l eq_refl) as (V & t & D & more & Et). cbn [res rr_ifaces]. rewrite (py_nth _ _ _ D). cbn [rbind].
      destruct l as [|k l].
      + cbn [map rbind]. do 2 f_equal. rewrite zeros_rows. apply rows_ext. intros. rewrite <- map_zero. apply map_ext. auto.
      + cbn [map]. change (Z.of_nat k :: map Z.of_nat l) with (map Z.of_nat (k :: l)).
        rewrite Et. change (map (fun i0 => map (fi i i0) (depths_in ws (k :: l) (mults d9 (ni i))) ++ more i0) (seq 0 n)) with (rows n (fun i0 => map (fi i i0) (depths_in ws (k :: l) (mults d9 (ni i))) ++ more i0)).
        rewrite (filled_sampled n (mults d9 (ni i)) ws (fi i) (k :: l) more) by auto. reflexivity.
    - cbn [rbind]. do 2 f_equal. rewrite zeros_rows. apply rows_ext. intros. rewrite <- map_zero. apply map_ext. auto.
  Qed.

  Lemma np_mono i j : (i <= j <= length widths)%nat -> (np i <= np j)%nat.
  Proof.
    intros [H1 H2]. induction j as [|j IH]; [replace i with 0%nat by lia; auto|]. destruct (Nat.eq_dec i (S j)) as [->|]; auto.
    destruct Hg as [_ G]. specialize (G j ltac:(lia)). lia.
  Qed.

  Lemma rt_bulk_ok pre w bs cum : widths = pre ++ w :: bs ->
    rt_bulk widths (mults db N) res (length pre) (np (length pre)) cum =
    Ok (fst (tab (b_nodes (length pre) cum)), snd (tab (b_nodes (length pre) cum)), np (S (length pre))) /\
    py_index widths (Z.of_nat (length pre)) = Ok w.
  Proof.
    intros E. assert (L : length widths = (length pre + S (length bs))%nat) by (rewrite E, app_length; auto).
    assert (I : py_index widths (Z.of_nat (length pre)) = Ok w).
    { apply py_nth. rewrite E, nth_error_app2 by auto. rewrite Nat.sub_diag. auto. }
    split; auto. unfold rt_bulk.
    assert (S1 : py_index (0 :: cumsum widths) (Z.of_nat (length pre)) = Ok (rsum (firstn (length pre) widths))).
    { rewrite (py_index_ok _ _ 0) by (cbn [length]; unfold cumsum; rewrite Proof_RayProfile.cumsum_go_length; lia).
      rewrite Nat2Z.id. f_equal. destruct (length pre) as [|k] eqn:Ek; auto.
      cbn [nth]. unfold cumsum. rewrite Proof_RayProfile.cumsum_go_nth by lia. lra. }
    assert (S2 : py_index (cumsum widths) (Z.of_nat (length pre)) = Ok (rsum (firstn (S (length pre)) widths))).
    { rewrite (py_index_ok _ _ 0) by (unfold cumsum; rewrite Proof_RayProfile.cumsum_go_length; lia).
      rewrite Nat2Z.id. f_equal. unfold cumsum. rewrite Proof_RayProfile.cumsum_go_nth by lia. lra. }
    rewrite S1, S2. cbn [rbind]. destruct Hg as [G1 G2].
    assert (G3 := G2 (length pre) ltac:(lia)). assert (G4 := np_mono (S (length pre)) (length widths) ltac:(lia)).
    rewrite (bulk_points db _ _ (np (length pre)) (np (S (length pre)))); auto; [|apply G1; lia|apply G1; lia|unfold N; lia].
    rewrite min_stretch; auto; [|lia].
    cbn [rbind]. rewrite stretch_length. cbn [res rr_profile]. rewrite cols_stretch by (unfold N; lia). unfold tab, b_nodes. cbn [fst snd].
    replace (np (length pre) + (np (S (length pre)) - np (length pre)))%nat with (np (S (length pre))) by lia.
    rewrite map_map. do 3 f_equal. unfold scale, rows. rewrite map_map. apply map_ext. intros. rewrite !map_map. auto.
  Qed.

  Lemma rt_pieces_ok : forall surfs bs pre i cum nn, length surfs = S (length bs) -> widths = pre ++ bs -> i = length pre ->
    nn = (i + length surfs)%nat -> (forall j s, nth_error surfs j = Some s -> surf_ok_at (i + j) s) ->
    rt_pieces o widths (mults db N) res nn (map to_surface surfs) i (np i) cum =
    Ok (map tab (rt_nodes surfs bs i cum)).
  Proof.
    induction surfs as [|[ly p] surfs IH]; intros bs pre i cum nn Hl Hbs Hi Hnn Hs; [discriminate|].
    cbn [map rt_pieces rt_nodes]. set (cum1 := match ly with None => cum | Some ws => cum + rsum ws * / 10 ^ 9 end).
    assert (Hs0 : surf_ok_at i (ly, p)). { rewrite <- (Nat.add_0_r i). apply Hs. auto. }
    match goal with |- rbind ?X _ = _ =>
      replace X with (@Ok (list (list R * table) * R)
        (map tab (match ly with None => [] | Some ws => [s_nodes i ws p cum] end), cum1)) end.
    2:{ unfold cum1. destruct ly as [ws|]; cbn [to_surface sf_layers fst map]; auto.
        change (option_map (fun l => Some (map Z.of_nat l)) (snd (Some ws, p))) with (sf_prof (to_surface (Some ws, p))).
        rewrite rt_surface_ok by auto. reflexivity. }
    cbn [rbind fst snd]. cbn [length] in Hl, Hnn. destruct bs as [|w bs].
    - cbn [length] in Hl. assert (surfs = []) by (destruct surfs; [auto|discriminate]). subst surfs.
      replace (Nat.ltb i (nn - 1)) with false by (symmetry; apply Nat.ltb_ge; simpl in Hnn; lia).
      cbn [map rt_pieces rbind rt_nodes]. rewrite map_app. auto.
    - cbn [length] in Hl. replace (Nat.ltb i (nn - 1)) with true by (symmetry; apply Nat.ltb_lt; lia).
      destruct (rt_bulk_ok pre w bs cum1 Hbs) as [B1 B2]. rewrite <- Hi in B1, B2. rewrite B1. cbn [rbind fst snd]. rewrite B2. cbn [rbind].
      rewrite (IH bs (pre ++ [w]) (S i) (cum1 + w) nn).
      + cbn [rbind]. f_equal. rewrite map_app. cbn [app map]. reflexivity.
      + lia.
      + rewrite <- app_assoc. auto.
      + rewrite app_length. cbn [length]. lia.
      + lia.
      + intros j s Hj. replace (S i + j)%nat with (i + S j)%nat by lia. apply Hs. auto.
  Qed.
End Rt.
