(* The complete files: a slab between plane surfaces, and power conservation from the solver to the result. *)
From Coq Require Import Reals List ZArith Bool Lia Lra String.
From Verif Require Import Base Lib Model_Angles Proof_Angles Spec_Angles Proof_AnglesProps Model_Ideal Proof_Ideal Model_MatMul Model_TMM Model_Slab
  Spec_Matrix Spec_MatMul Spec_Series Spec_TMM Spec_Slab Proof_IdealProps Proof_OutIn Proof_OutInProps Proof_RAT Proof_RAT2 Proof_RAT3 Proof_Series Proof_RCWAObj6
  Proof_TMM Proof_TMM2 Proof_Slab Proof_Slab2.
Import ListNotations.
Local Notation length := List.length.
Open Scope list_scope.
Open Scope R_scope.

(* ---------- stored files ---------- *)

Lemma half_len n phi_sym c sp g h s : valid_request n phi_sym c -> make_angle_vector n phi_sym c sp = Ok g -> length (g_av g) = (2 * h)%nat ->
  length (half_rows s g) = h.
Proof.
  intros _ _ Hh. unfold half_rows. rewrite Hh. replace (2 * h / 2)%nat with h by (rewrite Nat.mul_comm, Nat.div_mul; lia).
  destruct s; [rewrite firstn_length|rewrite skipn_length]; lia.
Qed.

Lemma rmap_ok_in {A B} (f : A -> res B) : forall l l', rmap f l = Ok l' -> forall y, In y l' -> exists x, In x l /\ f x = Ok y.
Proof.
  induction l as [|a l IH]; intros l' H y Hy; cbn [rmap] in H; [injection H as <-; destruct Hy|].
  destruct (f a) eqn:E1; cbn [rbind] in H; [|discriminate]. destruct (rmap f l) eqn:E2; cbn [rbind] in H; [|discriminate].
  injection H as <-. destruct Hy as [<-|Hy]; [exists a; split; [left|]; auto|].
  destruct (IH _ eq_refl y Hy) as [x [Hx E]]. exists x. split; [right|]; auto.
Qed.

Section Stored.
  Variables (n : nat) (phi_sym c : R) (sp : spacing) (g : grid) (h : nat).
  Hypothesis Hv : valid_request n phi_sym c.
  Hypothesis Hg : make_angle_vector n phi_sym c sp = Ok g.
  Hypothesis Hh : length (g_av g) = (2 * h)%nat.
  Variables (M : Type) (wls : list (solver M * (M -> R))) (mem : list R) (a : tmm_args M) (s : side) (f : stored).
  Hypothesis Hf : tmm_stored wls mem a s g phi_sym = Ok f.

  Lemma stored_shape : file_shaped (length wls) h f.
  Proof.
    unfold tmm_stored in Hf. destruct (rmap _ wls) as [mats|] eqn:E; cbn [rbind] in Hf; [|discriminate]. injection Hf as <-.
    pose proof (half_len n phi_sym c sp g h s Hv Hg Hh) as HL.
    assert (Sh : forall x, In x mats -> has_shape (fst x) (2 * h) h /\ has_shape (snd x) (length (ar_layers a)) h).
    { intros x Hx. destruct (rmap_ok_in _ _ _ E x Hx) as [w [_ Ew]]. unfold tmm_matrix_wl in Ew. rewrite HL in Ew.
      destruct (rmap _ (seq 0 h)) as [cols|] eqn:Ec; cbn [rbind] in Ew; [|discriminate]. injection Ew as <-. cbn [fst snd].
      apply rmap_length in Ec. rewrite seq_length in Ec.
      pose proof (fc_shape (2 * h) (map fst cols)) as S1. pose proof (fc_shape (length (ar_layers a)) (map snd cols)) as S2.
      rewrite map_length, Ec in S1, S2. split; auto. }
    apply rmap_length in E. split; cbn [f_RT f_A stored_for abs_stored].
    - split; [rewrite map_length; lia|]. intros x Hx. apply in_map_iff in Hx. destruct Hx as [y [<- Hy]]. apply Sh. auto.
    - exists (length (ar_layers a)). split; [rewrite map_length; lia|]. intros x Hx. apply in_map_iff in Hx. destruct Hx as [y [<- Hy]]. apply Sh. auto.
  Qed.

  Lemma stored_at w SV idx i : nth_error wls w = Some (SV, idx) -> (i < h)%nat ->
    exists col Al, tmm_matrix_column SV mem idx a s g phi_sym i = Ok (col, Al) /\
      length (at_wl (f_RT f) w) = (2 * h)%nat /\ length (at_wl (f_A f) w) = length (ar_layers a) /\
      (forall r, (r < 2 * h)%nat -> entry (at_wl (f_RT f) w) r i = nth r col 0) /\
      (forall l, (l < length (ar_layers a))%nat -> entry (at_wl (f_A f) w) l i = nth l Al 0).
  Proof.
    intros Hw Hi.
    unfold tmm_stored in Hf. destruct (rmap _ wls) as [mats|] eqn:E; cbn [rbind] in Hf; [|discriminate]. injection Hf as <-.
    pose proof (half_len n phi_sym c sp g h s Hv Hg Hh) as HL.
    assert (Lw : (w < length wls)%nat) by (apply nth_error_Some; congruence).
    pose proof (rmap_length _ _ _ E) as LE.
    pose proof (rmap_nth _ _ _ w (SV, idx) ([], []) E Lw) as Ew.
    rewrite (nth_error_nth _ _ _ Hw) in Ew. cbn [fst snd] in Ew. unfold tmm_matrix_wl in Ew. rewrite HL in Ew.
    destruct (rmap _ (seq 0 h)) as [cols|] eqn:Ec; cbn [rbind] in Ew; [|discriminate]. injection Ew as Ew.
    pose proof (rmap_length _ _ _ Ec) as LC. rewrite seq_length in LC.
    pose proof (rmap_nth _ _ _ i 0%nat ([], []) Ec ltac:(rewrite seq_length; auto)) as Ei. rewrite seq_nth in Ei by auto. cbn [Nat.add] in Ei.
    cbn [f_RT f_A at_wl].
    assert (E1 : nth w (map fst mats) [] = from_columns (2 * h) (map fst cols)).
    { transitivity (fst (nth w mats ([], []))); [apply nth_map_lt; lia|exact (f_equal fst (eq_sym Ew))]. }
    assert (E2 : nth w (map snd mats) [] = from_columns (length (ar_layers a)) (map snd cols)).
    { transitivity (snd (nth w mats ([], []))); [apply nth_map_lt; lia|exact (f_equal snd (eq_sym Ew))]. }
    rewrite E1, E2. exists (fst (nth i cols ([], []))), (snd (nth i cols ([], []))).
    split; [rewrite <- surjective_pairing; auto|]. split; [apply fc_shape|]. split; [apply fc_shape|]. split.
    - intros r Hr. rewrite fc_entry by (try rewrite map_length; lia). rewrite nth_map_lt with (da := ([], [])) by lia. auto.
    - intros l Hl. rewrite fc_entry by (try rewrite map_length; lia). rewrite nth_map_lt with (da := ([], [])) by lia. auto.
  Qed.

  Lemma column_entry SV idx i r col Al : (i < h)%nat -> nth_error (g_av g) (channel_row s h i) = Some r ->
    tmm_matrix_column SV mem idx a s g phi_sym i = Ok (col, Al) ->
    exists Rp Tp, tmm_entry SV mem a s (incoming s (a_theta r)) = Ok (Rp, Tp, Al).
  Proof.
    intros Hi Hr E. unfold tmm_matrix_column in E.
    destruct (py_index (half_rows s g) (Z.of_nat i)) as [r'|] eqn:E1; cbn [rbind] in E; [|discriminate].
    destruct (py_index (theta_lookup s g) (Z.of_nat i)) as [th|] eqn:E2; cbn [rbind] in E; [|discriminate].
    rewrite (theta_lookup_nth n phi_sym c sp g h Hv Hg Hh s i r Hi Hr) in E2. injection E2 as <-.
    destruct (tmm_entry SV mem a s _) as [[[Rp Tp] Al']|]; cbn [rbind] in E; [|discriminate].
    destruct (tmm_column _ _ _ _ _ _ _ _ _); cbn [rlift rbind snd] in E; [|discriminate]. injection E as <- <-. eauto.
  Qed.
End Stored.

(* ---------- a solver that loses nothing ---------- *)

Lemma inner_length {A} (l : list A) n : length l = (n + 2)%nat -> length (inner l) = n.
Proof.
  intros H. unfold inner. destruct l as [|x l]; cbn in H; [lia|]. cbn [tl]. rewrite removelast_firstn_len, firstn_length. lia.
Qed.

Definition fair (nl : nat) (x y : R) (Al : list R) : Prop :=
  length Al = nl /\ 0 <= x /\ 0 <= y /\ (forall z, In z Al -> 0 <= z) /\ x + y + rsum Al = 1.

Lemma sol_fair k s : balanced k s -> 0 <= s_R s -> 0 <= s_T s -> forall b : bool,
  fair k (t_R (if b then calc_coh s else calc_inc s)) (t_T (if b then calc_coh s else calc_inc s)) (t_Al (if b then calc_coh s else calc_inc s)).
Proof.
  intros HB HR HT b. pose proof HB as [L [Hn Hb]].
  assert (Hin : forall x, In x (inner (s_abs s)) -> 0 <= x) by (intros; apply Hn, inner_in; auto).
  destruct b.
  - cbn [calc_coh t_R t_T t_Al]. split; [apply inner_length; auto|]. repeat split; auto. lra.
  - destruct (calc_inc_balanced k s HB) as [E1 [E2 E3]]. rewrite E1. cbn [calc_inc t_R t_T].
    split; [apply inner_length; auto|]. repeat split; auto. lra.
Qed.

Lemma rsum_rev l : rsum (rev l) = rsum l.
Proof. induction l; cbn [rev rsum]; auto. rewrite rsum_app. cbn [rsum]. lra. Qed.

Lemma one_fair M (SV : solver M) mem a s pol theta Rp Tp Al : balances SV -> in_sp pol = true ->
  tmm_one SV mem a s pol theta = Ok (Rp, Tp, Al) -> fair (length (ar_layers a)) Rp Tp Al.
Proof.
  intros [B1 B2] Hp E. unfold tmm_one, calculate in E. cbn [p_pol tmm_opts] in E. rewrite Hp in E.
  destruct (coh_for false (tmm_stack a s) (tmm_opts a pol theta)) as [cl|]; cbn [rlift rbind] in E; [|discriminate].
  destruct (solve SV (tmm_stack a s) (tmm_opts a pol theta) cl pol) as [so|] eqn:ES; cbn [rlift rbind] in E; [|discriminate].
  assert (HB : balanced (length (ar_layers a)) so /\ 0 <= s_R so /\ 0 <= s_T so).
  { replace (length (ar_layers a)) with (length (o_layers (tmm_stack a s))) by (destruct s; cbn; auto; apply rev_length).
    unfold solve in ES. destruct (p_coherent (tmm_opts a pol theta)); eauto. }
  destruct HB as [HB [HR HT]]. pose proof (sol_fair _ _ HB HR HT (p_coherent (tmm_opts a pol theta))) as F.
  set (t := if p_coherent (tmm_opts a pol theta) then calc_coh so else calc_inc so) in *. destruct F as [F1 [F2 [F3 [F4 F5]]]].
  injection E as <- <- <-. rewrite !clip_id, map_clip_id by auto. destruct s; cbn [flip_rear]; [repeat split; auto|].
  split; [rewrite rev_length; auto|]. split; auto. split; auto. split; [intros x Hx; apply in_rev in Hx; auto|]. rewrite rsum_rev. auto.
Qed.

Lemma half_fair nl x y Al x' y' Al' : fair nl x y Al -> fair nl x' y' Al' ->
  fair nl (half_sum x x') (half_sum y y') (map2 half_sum Al Al').
Proof.
  intros [L [A1 [A2 [A3 A4]]]] [L' [B1 [B2 [B3 B4]]]]. unfold half_sum in *. cbv [fair].
  assert (G : forall l l' : list R, length l = length l' -> (forall x, In x l -> 0 <= x) -> (forall x, In x l' -> 0 <= x) ->
    length (map2 (fun a b => 1 / 2 * (a + b)) l l') = length l /\ (forall x, In x (map2 (fun a b => 1 / 2 * (a + b)) l l') -> 0 <= x) /\
    2 * rsum (map2 (fun a b => 1 / 2 * (a + b)) l l') = rsum l + rsum l').
  { clear. induction l as [|x l IH]; intros [|y l'] E P Q; cbn in E; try lia; cbn [map2 rsum length].
    - split; auto. split; [intros z []|lra].
    - destruct (IH l') as [I1 [I2 I3]]; try lia; [intros; apply P; right; auto|intros; apply Q; right; auto|].
      repeat split; [lia| |lra]. intros z [<-|Hz]; auto.
      assert (0 <= x) by (apply P; left; auto). assert (0 <= y) by (apply Q; left; auto). lra. }
  destruct (G Al Al') as [I1 [I2 I3]]; auto; try congruence. repeat split; try lia; try lra. auto.
Qed.

Lemma entry_fair M (SV : solver M) mem a s theta Rp Tp Al : balances SV -> (in_sp (ar_pol a) = true \/ ar_pol a = "u"%string) ->
  tmm_entry SV mem a s theta = Ok (Rp, Tp, Al) -> fair (length (ar_layers a)) Rp Tp Al.
Proof.
  intros HB Hp E. unfold tmm_entry in E. destruct (String.eqb_spec (ar_pol a) "u") as [Hu|Hu].
  - destruct (tmm_one SV mem a s "s" theta) as [[[R1 T1] A1]|] eqn:E1; cbn [rbind] in E; [|discriminate].
    destruct (tmm_one SV mem a s "p" theta) as [[[R2 T2] A2]|] eqn:E2; cbn [rbind] in E; [|discriminate].
    cbn [fst snd] in E. injection E as <- <- <-. apply half_fair; eapply one_fair; eauto; reflexivity.
  - destruct Hp as [Hp|]; [|contradiction]. eapply one_fair; eauto.
Qed.

Lemma rsum_nth_seq (l : list R) k : length l = k -> rsum (map (fun i => nth i l 0) (seq 0 k)) = rsum l.
Proof. intros <-. f_equal. apply map_nth_seq. Qed.

Lemma column_sum n phi_sym c sp g h M (SV : solver M) mem idx a s i r Rp Tp Al :
  valid_request n phi_sym c -> make_angle_vector n phi_sym c sp = Ok g -> length (g_av g) = (2 * h)%nat ->
  1 / 10 ^ 10 <= phi_sym -> (i < h)%nat -> nth_error (g_av g) (channel_row s h i) = Some r ->
  0 < idx (from_medium a s) -> 0 < idx (into_medium a s) ->
  tmm_entry SV mem a s (incoming s (a_theta r)) = Ok (Rp, Tp, Al) ->
  kept (idx (from_medium a s)) (idx (into_medium a s)) (incoming s (a_theta r)) Tp ->
  exists col, tmm_matrix_column SV mem idx a s g phi_sym i = Ok (col, Al) /\ length col = (2 * h)%nat /\ rsum col = Rp + Tp /\
    (0 <= Rp -> 0 <= Tp -> forall k, 0 <= nth k col 0).
Proof.
  intros Hv Hg Hh Hphi Hi Hr Hn1 Hn2 He Hk.
  assert (E1 : idx (from_medium a s) = idx (fst (snell_media a s))) by (destruct s; reflexivity).
  assert (E2 : idx (into_medium a s) = idx (snd (snell_media a s))) by (destruct s; reflexivity).
  rewrite E1, E2 in *. clear E1 E2.
  assert (NN : forall col kr kt, holds_two col kr Rp kt Tp -> 0 <= Rp -> 0 <= Tp -> forall k, 0 <= nth k col 0).
  { intros col kr kt [_ H] P Q k. rewrite H. destruct (Nat.eqb k kr); auto. destruct (Nat.eqb k kt); auto. lra. }
  destruct Hk as [K|[K [KT|KT]]].
  - destruct (column_below n phi_sym c sp g h Hv Hg Hh Hphi M SV mem idx a s i r Rp Tp Al Hn1 Hn2 Hi Hr He K)
      as (col & f & psi & kr & kt & C1 & C2 & C3 & C4 & C5 & C6 & C7 & C8 & C9 & C10).
    exists col. split; auto. split; auto. split; auto. apply (NN _ _ _ C9).
  - destruct (column_beyond n phi_sym c sp g h Hv Hg Hh Hphi M SV mem idx a s i r Rp Tp Al Hn1 Hn2 Hi Hr He K KT)
      as (col & f & kr & kt & C1 & C2 & C3 & C5 & C6 & C7 & C8 & C9 & C10).
    exists col. split; auto. split; auto. split; auto. apply (NN _ _ _ C9).
  - destruct (column_dropped n phi_sym c sp g h Hv Hg Hh Hphi M SV mem idx a s i r Rp Tp Al Hn1 Hn2 Hi Hr He K ltac:(rewrite KT; lra))
      as (col & f & kr & C1 & C2 & C3 & C5 & C6 & C7 & C8).
    exists col. split; auto. split; auto. split; [lra|]. intros P Q k. rewrite C7. destruct (Nat.eqb k kr); auto. lra.
Qed.

Lemma stored_conserves n phi_sym c sp g h M (wls : list (solver M * (M -> R))) mem a s f :
  valid_request n phi_sym c -> make_angle_vector n phi_sym c sp = Ok g -> length (g_av g) = (2 * h)%nat ->
  1 / 10 ^ 10 <= phi_sym -> (in_sp (ar_pol a) = true \/ ar_pol a = "u"%string) ->
  (forall SV idx, In (SV, idx) wls -> balances SV /\ 0 < idx (from_medium a s) /\ 0 < idx (into_medium a s) /\ all_kept SV mem idx a s g h) ->
  tmm_stored wls mem a s g phi_sym = Ok f -> file_conserves (length wls) h f /\ file_passive (length wls) h f.
Proof.
  intros Hv Hg Hh Hphi Hp Hw Hf. pose proof (stored_shape n phi_sym c sp g h Hv Hg Hh M wls mem a s f Hf) as Sh.
  assert (COL : forall w k, (w < length wls)%nat -> (k < h)%nat ->
    length (at_wl (f_RT f) w) = (2 * h)%nat /\ length (at_wl (f_A f) w) = length (ar_layers a) /\
    col_total (at_wl (f_RT f) w) k + col_total (at_wl (f_A f) w) k = 1 /\
    (forall r, 0 <= entry (at_wl (f_RT f) w) r k) /\ (forall r, 0 <= entry (at_wl (f_A f) w) r k)).
  { intros w k Lw Hk. destruct (nth_error wls w) as [[SV idx]|] eqn:Ew; [|apply nth_error_None in Ew; lia].
    destruct (Hw SV idx (nth_error_In _ _ Ew)) as [HB [Hn1 [Hn2 HK]]].
    destruct (nth_error (g_av g) (channel_row s h k)) as [r|] eqn:Er; [|apply nth_error_None in Er; destruct s; cbn [channel_row] in Er; lia].
    destruct (stored_at n phi_sym c sp g h Hv Hg Hh M wls mem a s f Hf w SV idx k Ew Hk) as [col [Al [C1 [C2 [C3 [C4 C5]]]]]].
    destruct (column_entry n phi_sym c sp g h Hv Hg Hh M mem a s SV idx k r col Al Hk Er C1) as [Rp [Tp E]].
    destruct (column_sum n phi_sym c sp g h M SV mem idx a s k r Rp Tp Al Hv Hg Hh Hphi Hk Er Hn1 Hn2 E (HK k r Rp Tp Al Hk Er E))
      as [col' [D1 [D2 [D3 D4]]]].
    rewrite C1 in D1. injection D1 as <-.
    destruct (entry_fair M SV mem a s _ Rp Tp Al HB Hp E) as [F1 [F2 [F3 [F4 F5]]]].
    split; auto. split; auto. split; [|split].
    - rewrite (col_total_tab _ (2 * h)), (col_total_tab (at_wl (f_A f) w) (length (ar_layers a))) by auto.
      rewrite (map_ext_in _ (fun r => nth r col 0)) by (intros x Hx; apply in_seq in Hx; apply C4; lia).
      rewrite (map_ext_in (fun r => entry (at_wl (f_A f) w) r k) (fun l => nth l Al 0)) by (intros x Hx; apply in_seq in Hx; apply C5; lia).
      rewrite !rsum_nth_seq by auto. lra.
    - intros x. destruct (Nat.lt_ge_cases x (2 * h)); [rewrite C4; auto|]. unfold entry. rewrite nth_overflow with (n := x) by lia.
      destruct k; cbn; lra.
    - intros x. destruct (Nat.lt_ge_cases x (length (ar_layers a))); [rewrite C5 by auto; apply F4, nth_In; lia|].
      unfold entry. rewrite nth_overflow with (n := x) by lia. destruct k; cbn; lra. }
  split; split; auto.
  - intros w k Lw Hk. apply COL; auto.
  - split; [|intros w k Lw Hk; destruct (COL w k Lw Hk) as [_ [_ [E _]]]; lra].
    intros w Lw. destruct Sh as [S1 S2].
    assert (NM : forall m nr, has_shape m nr h -> (forall k r, (k < h)%nat -> 0 <= entry m r k) -> nonneg_matrix m).
    { intros m nr [L1 L2] P row x Hrow Hx. apply In_nth with (d := []) in Hrow. destruct Hrow as [r [Hr <-]].
      apply In_nth with (d := 0) in Hx. destruct Hx as [k [Hk <-]]. rewrite (L2 (nth r m [])) in Hk by (apply nth_In; auto). apply (P k r Hk). }
    split.
    + apply (NM _ (2 * h)%nat); [|intros; apply COL; auto]. destruct (f_RT f) as [ms|x]; cbn [stored_for at_wl] in *; auto.
      destruct S1 as [S1 S1']. apply S1', nth_In. lia.
    + unfold tmm_stored in Hf. destruct (rmap _ wls) as [mats|] eqn:E; cbn [rbind] in Hf; [|discriminate]. injection Hf as <-.
      cbn [f_A abs_stored stored_for at_wl] in *. destruct S2 as [nl [S2 S2']]. apply (NM _ nl); [|intros; apply COL; auto].
      apply S2', nth_In. lia.
Qed.

(* ---------- the slab ---------- *)

Definition back_at (h w : nat) (f1 : stored) (j : nat) (r1 t1 : R) : Prop :=
  length (upward h w f1) = h /\ (forall r, (r < h)%nat -> entry (upward h w f1) r j = if Nat.eqb r j then r1 else 0) /\
  col_total (downward h w f1) j = t1.

Section Plane.
  Variables (n : nat) (phi_sym c : R) (sp : spacing) (g : grid) (h m : nat).
  Hypothesis Hv : valid_request n phi_sym c.
  Hypothesis Hg : make_angle_vector n phi_sym c sp = Ok g.
  Hypothesis Hh : length (g_av g) = (2 * h)%nat.
  Hypothesis Hm : m_fold m phi_sym.
  Hypothesis He : Nat.even m = true.
  Hypothesis Hphi : 1 / 10 ^ 10 <= phi_sym.

  Section OneFile.
    Variables (M : Type) (wls : list (solver M * (M -> R))) (mem : list R) (a : tmm_args M) (s : side) (f : stored).
    Hypothesis Hf : tmm_stored wls mem a s g phi_sym = Ok f.
    Variables (w : nat) (SV : solver M) (idx : M -> R) (i : nat) (r : arow).
    Hypothesis Hw : nth_error wls w = Some (SV, idx).
    Hypothesis Hi : (i < h)%nat.
    Hypothesis Hr : nth_error (g_av g) (channel_row s h i) = Some r.
    Let n1 := idx (from_medium a s).
    Let n2 := idx (into_medium a s).
    Let theta := incoming s (a_theta r).
    Hypothesis Hn1 : 0 < n1.
    Hypothesis Hn2 : 0 < n2.

    Lemma plane_column : exists Rp Tp Al, tmm_entry SV mem a s theta = Ok (Rp, Tp, Al) /\ (kept n1 n2 theta Tp ->
      length (at_wl (f_RT f) w) = (2 * h)%nat /\
      (forall k, same_half s h k -> entry (at_wl (f_RT f) w) k i = if Nat.eqb k (channel_row s h i) then Rp else 0) /\
      rsum (map (fun k => entry (at_wl (f_RT f) w) k i) (seq (half_start h s false) h)) = Rp /\
      rsum (map (fun k => entry (at_wl (f_RT f) w) k i) (seq (half_start h s true) h)) = Tp /\
      (n1 * sin theta < n2 -> exists psi kt, refracts n1 n2 theta psi /\ bin_contains g kt (onward s psi) (a_phi r) /\ other_half s h kt /\
         forall k, other_half s h k -> entry (at_wl (f_RT f) w) k i = if Nat.eqb k kt then Tp else 0)).
    Proof.
      destruct (stored_at n phi_sym c sp g h Hv Hg Hh M wls mem a s f Hf w SV idx i Hw Hi) as [col [Al [C1 [C2 [C3 [C4 C5]]]]]].
      destruct (column_entry n phi_sym c sp g h Hv Hg Hh M mem a s SV idx i r col Al Hi Hr C1) as [Rp [Tp E]].
      exists Rp, Tp, Al. split; auto. intros HK.
      destruct (specular n phi_sym c sp g h m Hv Hg Hh Hm He M SV mem idx a s i r Rp Tp Al Hphi Hn1 Hn2 Hi Hr E HK)
        as [col' [D1 [D2 [D3 [D4 [D5 D6]]]]]].
      rewrite C1 in D1. injection D1 as <-.
      assert (SH : forall b k, In k (seq (half_start h s b) h) -> (k < 2 * h)%nat).
      { intros b k Hk. apply in_seq in Hk. unfold half_start in Hk. destruct s, b; lia. }
      assert (SH1 : forall k, same_half s h k -> (k < 2 * h)%nat) by (intros k; destruct s; cbn [same_half]; lia).
      assert (SH2 : forall k, other_half s h k -> (k < 2 * h)%nat) by (intros k; destruct s; cbn [other_half]; lia).
      split; auto. split; [intros k Hk; rewrite C4; auto|].
      split; [rewrite (map_ext_in _ (fun k => nth k col 0)); auto; intros k Hk; apply C4; eauto|].
      split; [rewrite (map_ext_in _ (fun k => nth k col 0)); auto; intros k Hk; apply C4; eauto|].
      intros K. destruct (D6 K) as [psi [kt [P1 [P2 [P3 P4]]]]]. exists psi, kt. split; auto. split; auto. split; auto.
      intros k Hk. rewrite C4; auto.
    Qed.
  End OneFile.

  Lemma tmm_back M (wls : list (solver M * (M -> R))) mem a f w SV idx j r : tmm_stored wls mem a Front g phi_sym = Ok f ->
    nth_error wls w = Some (SV, idx) -> (j < h)%nat -> nth_error (g_av g) j = Some r -> 0 < idx (from_medium a Front) ->
    0 < idx (into_medium a Front) -> exists R1 T1 A1, tmm_entry SV mem a Front (a_theta r) = Ok (R1, T1, A1) /\
      (kept (idx (from_medium a Front)) (idx (into_medium a Front)) (a_theta r) T1 -> back_at h w f j R1 T1).
  Proof.
    intros Hf Hw Hj Hr N1 N2.
    destruct (plane_column M wls mem a Front f Hf w SV idx j r Hw Hj Hr N1 N2) as [R1 [T1 [A1 [E K]]]].
    exists R1, T1, A1. split; auto. intros HK. destruct (K HK) as [K1 [K2 [K3 [K4 K5]]]].
    split; [unfold upward; rewrite firstn_length; lia|]. split.
    - intros r' Hr'. unfold upward. rewrite first_entry by auto. apply (K2 r'). exact Hr'.
    - unfold downward. rewrite skip_total by auto. exact K4.
  Qed.

  Lemma mirror_back f A w j : mirror_matrix g phi_sym Front = Ok (f, A) -> (j < h)%nat -> back_at h w (once (f, A)) j 1 0.
  Proof.
    intros Hf Hj. pose proof (h_off n phi_sym c sp g h Hv Hg Hh) as HO.
    destruct (mirror_general n phi_sym c sp g Hv Hg Front m Hm (or_introl He)) as [f' [E [S1 S2]]]. rewrite E in Hf. injection Hf as <- <-.
    rewrite <- HO in *.
    destruct (nth_error (g_av g) j) as [r0|] eqn:Er; [|apply nth_error_None in Er; lia].
    destruct (S2 j r0 Hj Er) as [r [q [[C1 C2] [_ [_ C3]]]]]. specialize (C3 He). cbn [shift_of Nat.add] in C3. subst r.
    assert (LF : length f' = (2 * h)%nat) by apply S1.
    cbv [back_at upward downward once]. cbn [f_RT at_wl fst].
    split; [rewrite firstn_length; lia|]. split.
    - intros r Hr. rewrite first_entry by auto. apply C2. lia.
    - rewrite skip_total by auto. apply rsum_map_0. intros r Hr. apply in_seq in Hr. rewrite C2 by lia. destruct (Nat.eqb_spec r j); [lia|auto].
  Qed.

  Variables (M : Type) (wls : list (solver M * (M -> R))) (mem : list R) (a0 : tmm_args M) (f0 b0 f1 : stored).
  Variables (theta phi thick thresh : R) (alphas : list R) (prof : bool) (fuel : nat) (st : mm_state) (o : rat).
  Hypothesis Hth : 0 <= theta < PI / 2.
  Hypothesis Hp0 : 0 <= phi.
  Hypothesis Hp1 : phi <> phi_sym.
  Hypothesis Hnw : length wls = length alphas.
  Hypothesis Hf0 : tmm_stored wls mem a0 Front g phi_sym = Ok f0.
  Hypothesis Hb0 : tmm_stored wls mem a0 Rear g phi_sym = Ok b0.
  Hypothesis Hf1 : file_shaped (length wls) h f1.
  Hypothesis Hrun : calculate_RAT n phi_sym c sp theta (PhiNum phi) alphas thick f0 b0 f1 thresh prof fuel = Ok (Some (st, o)).
  Variables (w : nat) (SV : solver M) (idx : M -> R).
  Hypothesis Hw : nth_error wls w = Some (SV, idx).
  Hypothesis Hn1 : 0 < idx (ar_inc a0).
  Hypothesis Hn2 : 0 < idx (ar_trn a0).

  Lemma slab_run : exists k0 ri i0 j0 z R0 T0 A0, nth_error (g_av g) k0 = Some ri /\ row_is g k0 i0 j0 /\ (k0 < h)%nat /\
    in_bin_left (g_theta_intv g) i0 theta /\ in_bin_left (phi_edges_of g i0) j0 (phi + IZR z * phi_sym) /\
    tmm_entry SV mem a0 Front (a_theta ri) = Ok (R0, T0, A0) /\
    (idx (ar_inc a0) * sin (a_theta ri) < idx (ar_trn a0) -> exists psi k rk j rj Rb Tb Ab,
       refracts (idx (ar_inc a0)) (idx (ar_trn a0)) (a_theta ri) psi /\
       nth_error (g_av g) k = Some rk /\ bin_contains g k (PI - psi) (a_phi ri) /\
       (j < h)%nat /\ nth_error (g_av g) j = Some rj /\ a_theta rj = PI - a_theta rk /\ a_phi rj = a_phi rk /\
       tmm_entry SV mem a0 Rear (a_theta rj) = Ok (Rb, Tb, Ab) /\
       (kept (idx (ar_trn a0)) (idx (ar_inc a0)) (a_theta rj) Tb -> forall r1 t1, back_at h w f1 j r1 t1 ->
        let D := exp (- (nth w alphas 0 * thick / cos (a_theta rj))) in
        round D r1 Rb <> 1 -> exists left N, left <= thresh /\ left = T0 * round D r1 Rb ^ N /\
          R_at o w + left * (D * r1 * D * Tb / (1 - round D r1 Rb)) = slab_R R0 T0 Rb Tb r1 D /\
          T_at o w + left * (D * t1 / (1 - round D r1 Rb)) = slab_T T0 Rb r1 t1 D /\
          A_bulk_at o w + left * (((1 - D) + D * r1 * (1 - D)) / (1 - round D r1 Rb)) = slab_A T0 Rb r1 D)).
  Proof.
    assert (Hok : relabel_ok n m g) by (left; auto).
    assert (Lw : (w < length alphas)%nat) by (rewrite <- Hnw; apply nth_error_Some; congruence).
    destruct (C07_num n phi_sym c sp g m theta phi 1 Hv Hg Hm Hth Hp0 Hp1) as [k0 [i0 [j0 [z [row [Q1 [Q2 [Q3 [Q4 [Q5 [Q6 Q7]]]]]]]]]]].
    assert (Lr : length row = h) by lia. rewrite Lr in Q6.
    assert (Er : make_v0_row g theta (fold_phi_in (PhiNum phi) phi_sym) = Ok row).
    { unfold make_v0 in Q4. destruct (make_v0_row _ _ _); cbn [rbind repeat] in Q4; [|discriminate]. injection Q4 as ->. auto. }
    assert (Erow : row = one_channel h k0 1) by (apply oc_eq; auto).
    pose proof Q1 as [ri [Ei _]].
    destruct (plane_column M wls mem a0 Front f0 Hf0 w SV idx k0 ri Hw Q6 Ei Hn1 Hn2) as [R0 [T0 [A0 [E0 K0]]]].
    cbn [incoming] in E0, K0.
    exists k0, ri, i0, j0, z, R0, T0, A0. do 6 (split; auto). intros HS.
    assert (KEPT : kept (idx (ar_inc a0)) (idx (ar_trn a0)) (a_theta ri) T0) by (left; auto).
    destruct (K0 KEPT) as [L0 [K1 [K2 [K3 K4]]]]. destruct (K4 HS) as [psi [kt [P1 [P2 [P3 P4]]]]].
    cbn [other_half onward from_medium into_medium] in P1, P2, P3, P4.
    set (q := (kt - h)%nat).
    assert (Hq : (q < h)%nat) by (unfold q; lia).
    destruct (nth_error (g_av g) kt) as [rk|] eqn:Ek; [|apply nth_error_None in Ek; lia].
    destruct (opposite n phi_sym c sp g h m Hv Hg Hh Hm He) as [u [d [Eo [Su [Sd [Cu [Cd [O1 [O2 [O3 O4]]]]]]]]]].
    destruct (O4 kt rk Ek) as [rj [Ej [Tj Pj]]].
    set (j := opp phi_sym g kt) in *. assert (Hj : (j < h)%nat) by (apply O2; lia).
    assert (Eq : nth_error (g_av g) (channel_row Rear h q) = Some rk) by (cbn [channel_row]; unfold q; replace (h + (kt - h))%nat with kt by lia; auto).
    destruct (plane_column M wls mem a0 Rear b0 Hb0 w SV idx q rk Hw Hq Eq Hn2 Hn1) as [Rb [Tb [Ab [Eb KB]]]].
    cbn [incoming from_medium into_medium] in Eb, KB. rewrite <- Tj in Eb, KB.
    exists psi, kt, rk, j, rj, Rb, Tb, Ab. do 8 (split; auto). intros HKb r1 t1 [B1 [B2 B3]] D HD.
    destruct (KB HKb) as [Lb [KB1 [KB2 [KB3 _]]]].
    destruct (pass_series n phi_sym c sp g h m theta (PhiNum phi) alphas thick f0 b0 f1 thresh prof fuel st o row u d Hv Hg Hh Hm Hok)
      as [N [N1 [_ N3]]]; auto.
    { split; auto. }
    { rewrite <- Hnw. eapply stored_shape; eauto. }
    { rewrite <- Hnw. eapply stored_shape; eauto. }
    { rewrite <- Hnw. auto. }
    destruct (N3 w Lw) as [NR [NT [NA _]]].
    assert (Hray : ray_theta g j = a_theta rj).
    { unfold ray_theta. rewrite nth_map_lt with (da := default_row) by lia. rewrite (nth_error_nth _ _ _ Ej). auto. }
    assert (HcD : exp (- (nth w alphas 0 * thick / Rabs (cos (ray_theta g j)))) = D).
    { rewrite Hray. unfold D. rewrite Rabs_right; auto. apply Rle_ge, cos_ge_0.
      - destruct (row_range n phi_sym c sp g h Hv Hg Hh j rj Ej). pose proof PI_RGT_0. lra.
      - destruct (proj1 (C01_rows _ _ _ _ _ Hv Hg)) as [h' [Hh' QQ]]. assert (h' = h) by lia. subst h'.
        destruct (QQ j rj Ej) as [QQ1 _]. apply QQ1 in Hj. lra. }
    destruct (slab_series g h u d alphas thick f0 b0 f1 w k0 q j R0 T0 Rb Tb r1 t1) with (N := N) as [left [S1 [S2 [S3 [S4 S5]]]]]; auto.
    - unfold downward. rewrite skipn_length. lia.
    - unfold downward. rewrite skipn_length. lia.
    - apply Su.
    - apply Sd.
    - intros r Hr. unfold downward. rewrite skip_entry, P4 by lia. unfold q.
      destruct (Nat.eqb_spec (h + r) kt), (Nat.eqb_spec r (kt - h)); auto; lia.
    - unfold upward. rewrite first_total by auto. exact K2.
    - intros r Hr. destruct (Cd q Hq) as [_ C2]. rewrite C2 by auto. unfold j. replace (h + q)%nat with kt by (unfold q; lia). auto.
    - intros r Hr. destruct (Cu j Hj) as [_ C2]. rewrite C2 by auto. unfold j. rewrite O3 by lia. auto.
    - intros r Hr. unfold downward. rewrite skip_entry, KB1 by (cbn [same_half]; lia). cbn [channel_row].
      destruct (Nat.eqb_spec (h + r) (h + q)), (Nat.eqb_spec r q); auto; lia.
    - unfold upward. rewrite first_total by auto. exact KB3.
    - rewrite HcD. auto.
    - rewrite HcD in *. rewrite <- Erow in *. exists left, N. split; [rewrite S1; apply N1; auto|]. split; auto.
      rewrite NR, NT, NA. auto.
  Qed.
End Plane.

Lemma mirror_shape n phi_sym c sp g h m : valid_request n phi_sym c -> make_angle_vector n phi_sym c sp = Ok g ->
  length (g_av g) = (2 * h)%nat -> m_fold m phi_sym -> Nat.even m = true -> forall nwl fm, mirror_matrix g phi_sym Front = Ok fm ->
  file_shaped nwl h (once fm) /\ forall w j, (j < h)%nat -> back_at h w (once fm) j 1 0.
Proof.
  intros Hv Hg Hh Hm He nwl [f A] Hf. pose proof (h_off n phi_sym c sp g h Hv Hg Hh) as HO. split.
  - destruct (mirror_general n phi_sym c sp g Hv Hg Front m Hm (or_introl He)) as [f' [E [S1 S2]]]. rewrite E in Hf. injection Hf as <- <-.
    rewrite <- HO in *. split; cbn [once f_RT f_A stored_for abs_stored fst snd]; auto.
  - intros w j Hj. apply (mirror_back n phi_sym c sp g h m Hv Hg Hh Hm He f A w j Hf Hj).
Qed.

Lemma once_conserves nwl h f : has_shape f (2 * h) h -> nonneg_matrix f -> (forall k, (k < h)%nat -> col_total f k = 1) ->
  file_conserves nwl h (once (f, [repeat 0 h])) /\ file_passive nwl h (once (f, [repeat 0 h])).
Proof.
  intros S N C.
  assert (SH : file_shaped nwl h (once (f, [repeat 0 h]))) by (split; cbn [once f_RT f_A stored_for abs_stored fst snd]; auto).
  assert (E : forall w k, (k < h)%nat -> col_total (at_wl (f_RT (once (f, [repeat 0 h]))) w) k + col_total (at_wl (f_A (once (f, [repeat 0 h]))) w) k = 1).
  { intros w k Hk. cbn [once f_RT f_A at_wl fst snd]. rewrite C, zero_row_col by auto. lra. }
  split; split; auto. split.
  - intros w _. split; cbn [once f_RT f_A at_wl fst snd]; auto. intros row x [<-|[]] Hx. apply repeat_spec in Hx. lra.
  - intros w k _ Hk. rewrite E by auto. lra.
Qed.

Lemma mirror_conserves n phi_sym c sp g h m nwl fm : valid_request n phi_sym c -> make_angle_vector n phi_sym c sp = Ok g ->
  length (g_av g) = (2 * h)%nat -> m_fold m phi_sym ->
  (Nat.even m = true \/ forall i, (i < 2 * n)%nat -> Nat.even (length (phi_edges_of g i) - 1) = true) ->
  mirror_matrix g phi_sym Front = Ok fm -> file_conserves nwl h (once fm) /\ file_passive nwl h (once fm).
Proof.
  intros Hv Hg Hh Hm Hev Hf. destruct (C05_ex n phi_sym c sp g m Front Hv Hg Hm Hev) as [h' [f [E1 [E2 [E3 E4]]]]].
  assert (h' = h) by lia. subst h'. rewrite E2 in Hf. injection Hf as <-.
  assert (U : forall k, (k < h)%nat -> exists r, column_is_unit f (2 * h) k r).
  { intros k Hk. destruct (nth_error (g_av g) k) as [r0|] eqn:Er; [|apply nth_error_None in Er; lia].
    destruct (E4 k r0 Hk Er) as [r [q [U _]]]. eauto. }
  apply once_conserves; auto.
  - destruct E3 as [L1 L2]. intros row x Hrow Hx. apply In_nth with (d := []) in Hrow. destruct Hrow as [r [Hr <-]].
    apply In_nth with (d := 0) in Hx. destruct Hx as [k [Hk <-]]. rewrite (L2 (nth r f [])) in Hk by (apply nth_In; auto).
    destruct (U k Hk) as [r' [_ U2]]. change (0 <= entry f r k). rewrite U2 by lia. destruct (Nat.eqb r r'); lra.
  - intros k Hk. destruct (U k Hk) as [r [U1 U2]]. rewrite (col_total_tab _ (2 * h)) by apply E3.
    rewrite (rsum_map_single (fun r => entry f r k) (2 * h) r U1); rewrite ?U2, ?Nat.eqb_refl by auto; auto.
    intros j Hj Hne. rewrite U2 by auto. destruct (Nat.eqb_spec j r); [contradiction|auto].
Qed.

Lemma lambertian_conserves n phi_sym c sp g h nwl : valid_request n phi_sym c -> make_angle_vector n phi_sym c sp = Ok g ->
  length (g_av g) = (2 * h)%nat ->
  file_conserves nwl h (once (lambertian_matrix g)) /\ file_passive nwl h (once (lambertian_matrix g)).
Proof.
  intros Hv Hg Hh. destruct (C04_ex n phi_sym c sp g Hv Hg) as [h' [f [H0 [E1 [E2 [E3 [E4 [E5 [E6 _]]]]]]]]].
  assert (h' = h) by lia. subst h'. rewrite E1. apply once_conserves; auto.
  intros k Hk. assert (LF : length f = (2 * h)%nat) by apply E3.
  rewrite (col_total_tab _ (2 * h)) by auto. rewrite sum_split_half. rewrite <- (first_total f h k LF), E5 by auto.
  rewrite rsum_map_0; [lra|]. intros r Hr. apply in_seq in Hr. apply E6; lia.
Qed.

(* the matrices exist whenever the solver answers *)
Lemma stored_exists n phi_sym c sp g h M (wls : list (solver M * (M -> R))) mem a s :
  valid_request n phi_sym c -> make_angle_vector n phi_sym c sp = Ok g -> length (g_av g) = (2 * h)%nat -> 1 / 10 ^ 10 <= phi_sym ->
  (forall SV idx, In (SV, idx) wls -> 0 < idx (from_medium a s) /\ 0 < idx (into_medium a s) /\ all_kept SV mem idx a s g h /\
     forall theta, exists e, tmm_entry SV mem a s theta = Ok e) ->
  exists f, tmm_stored wls mem a s g phi_sym = Ok f.
Proof.
  intros Hv Hg Hh Hphi Hw. unfold tmm_stored. pose proof (half_len n phi_sym c sp g h s Hv Hg Hh) as HL.
  destruct (rmap_ok_all (fun w => tmm_matrix_wl (fst w) mem (snd w) a s g phi_sym) wls) as [mats ->]; [|cbn [rbind]; eauto].
  intros [SV idx] Hin. cbn [fst snd]. destruct (Hw SV idx Hin) as [N1 [N2 [K E]]]. unfold tmm_matrix_wl. rewrite HL.
  destruct (rmap_ok_all (tmm_matrix_column SV mem idx a s g phi_sym) (seq 0 h)) as [cols ->]; [|cbn [rbind]; eauto].
  intros i Hi. apply in_seq in Hi.
  destruct (nth_error (g_av g) (channel_row s h i)) as [r|] eqn:Er; [|apply nth_error_None in Er; destruct s; cbn [channel_row] in Er; lia].
  destruct (E (incoming s (a_theta r))) as [[[Rp Tp] Al] Ee].
  destruct (column_sum n phi_sym c sp g h M SV mem idx a s i r Rp Tp Al Hv Hg Hh Hphi ltac:(lia) Er N1 N2 Ee (K i r Rp Tp Al ltac:(lia) Er Ee))
    as [col [C _]]. eauto.
Qed.
