(* Proofs about calculate_RAT with several bulk layers (C188, C189) *)
From Coq Require Import Reals List ZArith Bool Lia Lra.
From Verif Require Import Base Lib Model_Angles Proof_Angles Spec_Angles Model_Ideal Model_MatMul Model_Bulks Spec_Matrix
  Spec_MatMul Spec_Bulks Proof_AnglesProps Proof_Ideal Proof_IdealProps Proof_MatMul Proof_OutIn Proof_OutInProps Proof_RAT
  Proof_RAT2 Proof_RAT3.
Import ListNotations.
Local Notation length := List.length.
Open Scope list_scope.
Open Scope R_scope.

Lemma list_item_ok {A} (l : list A) i x : list_item l i = Ok x <-> nth_error l i = Some x.
Proof. unfold list_item. destruct (nth_error l i); split; intros H; inversion H; auto. Qed.

Lemma bulk_setups_nth g phi_sym thresh fronts rears bs : forall i Ss, bulk_setups g phi_sym thresh fronts rears i bs = Ok Ss ->
  length Ss = length bs /\
  forall j b, nth_error bs j = Some b -> exists s, nth_error Ss j = Some s /\
    bulk_setup g phi_sym thresh fronts rears (i + j) b = Ok s.
Proof.
  induction bs as [|b bs IH]; intros i Ss H; cbn [bulk_setups] in H.
  - inversion H. split; auto. intros [|j] b Hb; discriminate.
  - destruct (bulk_setup g phi_sym thresh fronts rears i b) as [s|] eqn:Es; cbn [rbind] in H; [|discriminate].
    destruct (bulk_setups g phi_sym thresh fronts rears (S i) bs) as [l|] eqn:El; cbn [rbind] in H; [|discriminate].
    inversion H. subst Ss. destruct (IH _ _ El) as [L N]. split; [cbn; auto|].
    intros [|j] b' Hb; cbn in Hb.
    + inversion Hb. subst b'. exists s. rewrite Nat.add_0_r. auto.
    + destruct (N j b' Hb) as [s' [E1 E2]]. exists s'. rewrite Nat.add_succ_r. auto.
Qed.

Lemma run_bulks_nth prof v0 fuel Ss : forall sts, run_bulks prof Ss v0 fuel = Some sts ->
  length sts = length Ss /\
  forall j s, nth_error Ss j = Some s -> exists st, nth_error sts j = Some st /\ mm_loop prof s fuel (mm_init s v0) = Some st.
Proof.
  induction Ss as [|s Ss IH]; intros sts H; cbn [run_bulks] in H.
  - inversion H. split; auto. intros [|j] s Hs; discriminate.
  - destruct (mm_loop prof s fuel (mm_init s v0)) as [st|] eqn:Es; [|discriminate].
    destruct (run_bulks prof Ss v0 fuel) as [l|] eqn:El; [|discriminate].
    inversion H. subst sts. destruct (IH _ eq_refl) as [L N]. split; [cbn; auto|].
    intros [|j] s' Hs; cbn in Hs.
    + inversion Hs. subst s'. exists st. auto.
    + exact (N j s' Hs).
Qed.

(* the rows, when there are results *)
Lemma rows_ok prof nw sts o : rows_result prof nw sts = Ok o ->
  sts <> [] /\ ro_R o = map (fun st => sum02 nw (s_vr st)) sts /\
  ((forall st, In st sts -> (1 < s_i2 st)%nat) /\
     ro_T o = Some (map (fun st => sum02 nw (s_vt st)) sts) /\ ro_A_bulk o = Some (map (fun st => sum0 nw (s_A st)) sts) /\
     ro_A_interface o = (if prof then Some (map (sum02 nw) (interface_passes [] sts)) else None) /\ ro_has_profiles o = prof
   \/ (exists st, nth_error sts (length sts - 1) = Some st /\ ~ (1 < s_i2 st)%nat) /\
     ro_T o = None /\ ro_A_bulk o = None /\ ro_A_interface o = None /\ ro_has_profiles o = false).
Proof.
  unfold rows_result. intros H. destruct (rev sts) as [|last r] eqn:Er; [discriminate|].
  assert (Es : sts = rev r ++ [last]) by (rewrite <- (rev_involutive sts), Er; reflexivity).
  split; [intros ->; discriminate|].
  destruct (1 <? s_i2 last)%nat eqn:Ei.
  - destruct (forallb _ sts) eqn:Ef; [|discriminate]. inversion H. cbn. split; auto. left.
    split; auto. intros st Hst. rewrite forallb_forall in Ef. apply Nat.ltb_lt, Ef, Hst.
  - inversion H. cbn. split; auto. right. split; auto. exists last. split.
    + rewrite Es, app_length. cbn. replace (length (rev r) + 1 - 1)%nat with (length (rev r)) by lia.
      rewrite nth_error_app2, Nat.sub_diag by lia. reflexivity.
    + apply Nat.ltb_ge in Ei. lia.
Qed.

Lemma bulks_inv n phi_sym c sp theta phi_in nw bs fronts rears thresh prof fuel sts o :
  calculate_RAT_bulks n phi_sym c sp theta phi_in nw bs fronts rears thresh prof fuel = Ok (Some (sts, o)) ->
  exists g v0 Ss, make_angle_vector n phi_sym c sp = Ok g /\ make_v0 g theta (fold_phi_in phi_in phi_sym) nw = Ok v0 /\
    bulk_setups g phi_sym thresh fronts rears 0 bs = Ok Ss /\ run_bulks prof Ss v0 fuel = Some sts /\
    rows_result prof nw sts = Ok o.
Proof.
  unfold calculate_RAT_bulks. intros H.
  destruct (make_angle_vector n phi_sym c sp) as [g|]; cbn [rbind] in H; [|discriminate].
  destruct (make_v0 g theta (fold_phi_in phi_in phi_sym) nw) as [v0|] eqn:Ev; cbn [rbind] in H; [|discriminate].
  destruct (bulk_setups g phi_sym thresh fronts rears 0 bs) as [Ss|] eqn:Es; cbn [rbind] in H; [|discriminate].
  destruct (run_bulks prof Ss v0 fuel) as [sts'|] eqn:Er; [|discriminate].
  destruct (rows_result prof nw sts') as [o'|] eqn:Eo; cbn [rbind] in H; [|discriminate].
  inversion H. subst. exists g, v0, Ss. auto.
Qed.

Lemma v0_length g theta p nw v0 : make_v0 g theta p nw = Ok v0 -> length v0 = nw.
Proof.
  unfold make_v0. destruct (make_v0_row g theta p) as [row|]; cbn [rbind]; intros H; inversion H. apply repeat_length.
Qed.

(* every bulk layer is treated as if it were the only one *)
Lemma bulks_alone n phi_sym c sp theta phi_in nw bs fronts rears thresh prof fuel sts o :
  calculate_RAT_bulks n phi_sym c sp theta phi_in nw bs fronts rears thresh prof fuel = Ok (Some (sts, o)) ->
  (forall b, In b bs -> length (bk_alphas b) = nw) ->
  bs <> [] /\ length sts = length bs /\ length (ro_R o) = length bs /\
  forall i b, nth_error bs i = Some b -> exists f0 b0 f1 st o1,
    nth_error fronts i = Some f0 /\ nth_error rears i = Some b0 /\ nth_error fronts (S i) = Some f1 /\
    calculate_RAT n phi_sym c sp theta phi_in (bk_alphas b) (bk_thick b) f0 b0 f1 thresh prof fuel = Ok (Some (st, o1)) /\
    nth_error sts i = Some st /\ nth_error (ro_R o) i = Some (o_R o1) /\
    (forall T, ro_T o = Some T -> exists Ti, o_T o1 = Some Ti /\ nth_error T i = Some Ti) /\
    (forall A, ro_A_bulk o = Some A -> exists Ai, o_A_bulk o1 = Some Ai /\ nth_error A i = Some Ai).
Proof.
  intros H HL. destruct (bulks_inv _ _ _ _ _ _ _ _ _ _ _ _ _ _ _ H) as (g & v0 & Ss & Hg & Hv & Hs & Hr & Ho).
  destruct (bulk_setups_nth _ _ _ _ _ _ _ _ Hs) as [L1 N1]. destruct (run_bulks_nth _ _ _ _ _ Hr) as [L2 N2].
  destruct (rows_ok _ _ _ _ Ho) as (Hne & HR & Hrest).
  split. { intros ->. destruct Ss; [|discriminate]. destruct sts; [|discriminate]. auto. }
  split; [congruence|]. split; [rewrite HR, map_length; congruence|].
  intros i b Hb. destruct (N1 i b Hb) as [s [Es Eb]]. destruct (N2 i s Es) as [st [Est El]]. cbn in Eb.
  unfold bulk_setup in Eb.
  destruct (list_item fronts i) as [f0|] eqn:E0; cbn [rbind] in Eb; [|discriminate].
  destruct (list_item rears i) as [b0|] eqn:E1; cbn [rbind] in Eb; [|discriminate].
  destruct (list_item fronts (S i)) as [f1|] eqn:E2; cbn [rbind] in Eb; [|discriminate].
  apply list_item_ok in E0, E1, E2.
  assert (Hnw : length (bk_alphas b) = nw) by (apply HL; eapply nth_error_In; eauto).
  exists f0, b0, f1, st, (mm_result prof nw st). do 3 (split; auto). split.
  { unfold calculate_RAT. rewrite Hg. cbn [rbind]. rewrite Hnw, Hv. cbn [rbind]. rewrite Eb. cbn [rbind].
    unfold matrix_multiplication. rewrite El, (v0_length _ _ _ _ _ Hv). auto. }
  split; auto. split.
  { rewrite HR, nth_error_map, Est. cbn. unfold mm_result. destruct (1 <? s_i2 st)%nat; auto. }
  destruct Hrest as [(Hi & HT & HA & _)|(_ & HT & HA & _)]; rewrite HT, HA.
  2:{ split; intros; discriminate. }
  assert (Hb' : (1 <? s_i2 st)%nat = true) by (apply Nat.ltb_lt, Hi; eapply nth_error_In; eauto).
  unfold mm_result. rewrite Hb'. cbn [o_T o_A_bulk].
  split; intros X HX; inversion HX; eexists; (split; [reflexivity|]); rewrite nth_error_map, Est; auto.
Qed.

Lemma rsum_seq_const (f : nat -> R) x n : (forall i, (i < n)%nat -> f i = x) -> rsum (map f (seq 0 n)) = INR n * x.
Proof.
  intros H. assert (E : forall s k, (s + k <= n)%nat -> rsum (map f (seq s k)) = INR k * x).
  { intros s k. revert s. induction k as [|k IH]; intros s Hs; [cbn; ring|].
    rewrite S_INR. cbn [seq map rsum]. change (rsum (map f (seq s (S k)))) with (f s + rsum (map f (seq (S s) k))).
    rewrite IH, H by lia. ring. }
  apply E. lia.
Qed.

(* the light is counted once for every bulk layer *)
Lemma bulks_counted n phi_sym c sp g h m theta phi_in nw bs fronts rears thresh prof fuel sts o :
  valid_request n phi_sym c -> make_angle_vector n phi_sym c sp = Ok g -> length (g_av g) = (2 * h)%nat ->
  m_fold m phi_sym -> relabel_ok n m g -> good_direction phi_sym theta phi_in ->
  (forall b, In b bs -> length (bk_alphas b) = nw) ->
  (forall f, In f fronts \/ In f rears -> file_conserves nw h f) ->
  calculate_RAT_bulks n phi_sym c sp theta phi_in nw bs fronts rears thresh prof fuel = Ok (Some (sts, o)) ->
  ro_T o <> None ->
  forall w, (w < nw)%nat ->
    (forall i, (i < length bs)%nat -> reported_for o sts i w = 1) /\
    rsum (map (fun i => reported_for o sts i w) (seq 0 (length bs))) = INR (length bs).
Proof.
  intros Hv Hg Hh Hm Hok Hd HL HF H HT w Hw.
  destruct (bulks_alone _ _ _ _ _ _ _ _ _ _ _ _ _ _ _ H HL) as (_ & L1 & L2 & HA).
  assert (One : forall i, (i < length bs)%nat -> reported_for o sts i w = 1).
  { intros i Hi. destruct (nth_error bs i) as [b|] eqn:Eb; [|apply nth_error_None in Eb; lia].
    destruct (HA i b Eb) as (f0 & b0 & f1 & st & o1 & E0 & E1 & E2 & Hc & Est & ER & ET & EA).
    assert (Hnw : length (bk_alphas b) = nw) by (apply HL; eapply nth_error_In; eauto).
    destruct (C09_ex n phi_sym c sp g h m theta phi_in (bk_alphas b) (bk_thick b) f0 b0 f1 thresh prof fuel Hv Hg Hh Hm Hok Hd)
      as [r [Er Hr]]; try (rewrite Hnw; apply HF; eauto using nth_error_In).
    rewrite Hc in Er. inversion Er. subst r. destruct (Hr st o1 eq_refl w) as [HE _]; [lia|].
    destruct (bulks_inv _ _ _ _ _ _ _ _ _ _ _ _ _ _ _ H) as (g' & v0 & Ss & _ & _ & _ & _ & Ho).
    destruct (rows_ok _ _ _ _ Ho) as (_ & _ & [(_ & HT' & HA' & _)|(_ & HT' & _)]); [|contradiction].
    destruct (ET _ HT') as [Ti [ET1 ET2]]. destruct (EA _ HA') as [Ai [EA1 EA2]].
    unfold reported_for, R_row, T_row, A_row, cell. rewrite HT', HA', Est.
    rewrite (nth_error_nth _ _ _ ER), (nth_error_nth _ _ _ ET2), (nth_error_nth _ _ _ EA2).
    unfold R_at, T_at, A_bulk_at in HE. rewrite ET1, EA1 in HE. lra. }
  split; auto. rewrite (rsum_seq_const _ 1); [ring|auto].
Qed.

(* one bulk layer: the ordinary calculate_RAT *)
Lemma one_bulk n phi_sym c sp g h m theta phi_in b f0 b0 f1 thresh prof fuel :
  valid_request n phi_sym c -> make_angle_vector n phi_sym c sp = Ok g -> length (g_av g) = (2 * h)%nat ->
  m_fold m phi_sym -> relabel_ok n m g -> good_direction phi_sym theta phi_in ->
  file_conserves (length (bk_alphas b)) h f0 -> file_conserves (length (bk_alphas b)) h b0 ->
  file_conserves (length (bk_alphas b)) h f1 ->
  exists r, calculate_RAT_bulks n phi_sym c sp theta phi_in (length (bk_alphas b)) [b] [f0; f1] [b0] thresh prof fuel = Ok r /\
    forall sts o, r = Some (sts, o) -> forall w, (w < length (bk_alphas b))%nat -> reported_for o sts 0 w = 1.
Proof.
  intros Hv Hg Hh Hm Hok Hd F0 B0 F1.
  destruct (C09_ex n phi_sym c sp g h m theta phi_in (bk_alphas b) (bk_thick b) f0 b0 f1 thresh prof fuel Hv Hg Hh Hm Hok Hd F0 B0 F1)
    as [r [Er Hr]].
  destruct (calc_unfold n phi_sym c sp g h Hv Hg Hh m theta phi_in (bk_alphas b) (bk_thick b) f0 b0 f1 thresh Hm Hok Hd)
    as [s [row [HS [Hrow [Hc _]]]]].
  rewrite Hc in Er. inversion Er as [Er']. clear Er.
  unfold calculate_RAT_bulks. rewrite Hg. cbn [rbind]. unfold make_v0. rewrite Hrow. cbn [rbind bulk_setups].
  unfold bulk_setup. cbn [list_item nth_error rbind]. unfold list_item. cbn [nth_error rbind]. rewrite HS. cbn [rbind run_bulks].
  unfold matrix_multiplication in Er'. rewrite repeat_length in Er'.
  destruct (mm_loop prof s fuel (mm_init s (repeat row (length (bk_alphas b))))) as [st|] eqn:El.
  2:{ eexists. split; [reflexivity|]. intros; discriminate. }
  unfold rows_result. cbn [rev app forallb]. destruct (1 <? s_i2 st)%nat eqn:Ei; cbn [andb rbind map];
    (eexists; split; [reflexivity|]); intros sts o E w Hw; inversion E; subst sts o;
    destruct (Hr st (mm_result prof (length (bk_alphas b)) st) (eq_sym Er') w Hw) as [HE _];
    unfold reported_for, R_row, T_row, A_row, cell; cbn [ro_R ro_T ro_A_bulk nth nth_error];
    unfold R_at, T_at, A_bulk_at, mm_result in HE; rewrite Ei in HE; cbn [o_R o_T o_A_bulk] in HE; lra.
Qed.

(* every bulk layer gets light: all variables are there *)
Lemma bulks_complete n phi_sym c sp g h m theta phi_in nw bs fronts rears thresh prof fuel row :
  valid_request n phi_sym c -> make_angle_vector n phi_sym c sp = Ok g -> length (g_av g) = (2 * h)%nat ->
  m_fold m phi_sym -> relabel_ok n m g -> good_direction phi_sym theta phi_in -> bs <> [] ->
  (forall b, In b bs -> length (bk_alphas b) = nw) ->
  (forall f, In f fronts -> file_shaped nw h f) ->
  make_v0_row g theta (fold_phi_in phi_in phi_sym) = Ok row ->
  (forall i f, (i < length bs)%nat -> nth_error fronts i = Some f ->
     exists w, (w < nw)%nat /\ thresh < rsum (map (fun r => dot r row) (skipn h (at_wl (f_RT f) w)))) ->
  length fronts = S (length bs) -> length rears = length bs ->
  exists r, calculate_RAT_bulks n phi_sym c sp theta phi_in nw bs fronts rears thresh prof fuel = Ok r /\
  forall sts o, r = Some (sts, o) ->
    length (ro_R o) = length bs /\
    (exists T A, ro_T o = Some T /\ ro_A_bulk o = Some A /\ length T = length bs /\ length A = length bs) /\
    (prof = true -> ro_has_profiles o = true /\
       exists a, ro_A_interface o = Some a /\ length a = length fronts).
Proof.
  intros Hv Hg Hh Hm Hok Hd Hne HL HF Hrow Hp Lf Lr.
  assert (HSs : forall bs' i, (forall b, In b bs' -> length (bk_alphas b) = nw) ->
            (i + length bs' = length bs)%nat ->
            exists Ss, bulk_setups g phi_sym thresh fronts rears i bs' = Ok Ss).
  { induction bs' as [|b bs' IH]; intros i Hb Hi; cbn [bulk_setups].
    - eexists; reflexivity.
    - cbn [length] in Hi. unfold bulk_setup, list_item.
      destruct (nth_error fronts i) as [f0|] eqn:E0; [|apply nth_error_None in E0; lia].
      destruct (nth_error rears i) as [b0|] eqn:E1; [|apply nth_error_None in E1; lia].
      destruct (nth_error fronts (S i)) as [f1|] eqn:E2; [|apply nth_error_None in E2; lia].
      cbn [rbind].
      destruct (calc_unfold n phi_sym c sp g h Hv Hg Hh m theta phi_in (bk_alphas b) (bk_thick b) f0 b0 f1 thresh Hm Hok Hd)
        as [s [row' [HS _]]].
      rewrite HS. cbn [rbind]. destruct (IH (S i)) as [l El]; [intros; apply Hb; right; auto|lia|].
      rewrite El. cbn [rbind]. eexists; reflexivity. }
  destruct (HSs bs 0%nat HL eq_refl) as [Ss ES].
  unfold calculate_RAT_bulks. rewrite Hg. cbn [rbind]. unfold make_v0. rewrite Hrow. cbn [rbind]. rewrite ES. cbn [rbind].
  destruct (run_bulks prof Ss (repeat row nw) fuel) as [sts|] eqn:Er.
  2:{ eexists. split; [reflexivity|]. intros; discriminate. }
  destruct (bulk_setups_nth _ _ _ _ _ _ _ _ ES) as [L1 N1]. destruct (run_bulks_nth _ _ _ _ _ Er) as [L2 N2].
  assert (Hi2 : forall st, In st sts -> (1 < s_i2 st)%nat).
  { intros st Hst. apply In_nth_error in Hst. destruct Hst as [i Hi].
    assert (Hib : (i < length bs)%nat) by (rewrite <- L1, <- L2; apply nth_error_Some; congruence).
    destruct (nth_error bs i) as [b|] eqn:Eb; [|apply nth_error_None in Eb; lia].
    destruct (N1 i b Eb) as [s [Es Ebs]]. destruct (N2 i s Es) as [st' [Est El]].
    rewrite Hi in Est. inversion Est. subst st'. cbn in Ebs. unfold bulk_setup in Ebs.
    destruct (list_item fronts i) as [f0|] eqn:E0; cbn [rbind] in Ebs; [|discriminate].
    destruct (list_item rears i) as [b0|] eqn:E1; cbn [rbind] in Ebs; [|discriminate].
    destruct (list_item fronts (S i)) as [f1|] eqn:E2; cbn [rbind] in Ebs; [|discriminate].
    apply list_item_ok in E0, E1, E2.
    assert (Hnw : length (bk_alphas b) = nw) by (apply HL; eapply nth_error_In; eauto).
    destruct (Hp i f0 Hib E0) as [w [Hw Hl]].
    assert (Hc : calculate_RAT n phi_sym c sp theta phi_in (bk_alphas b) (bk_thick b) f0 b0 f1 thresh prof fuel =
                 Ok (Some (st, mm_result prof nw st))).
    { unfold calculate_RAT. rewrite Hg. cbn [rbind]. unfold make_v0. rewrite Hnw, Hrow. cbn [rbind]. rewrite Ebs. cbn [rbind].
      unfold matrix_multiplication. rewrite El, repeat_length. auto. }
    destruct (C16_all n phi_sym c sp g h m theta phi_in (bk_alphas b) (bk_thick b) f0 b0 f1 thresh prof fuel st (mm_result prof nw st) w row
                Hv Hg Hh Hm Hok Hd) as (_ & (T & A & ET & _) & _); auto.
    - rewrite Hnw. apply HF. eapply nth_error_In; eauto.
    - rewrite Hnw. auto.
    - revert ET. unfold mm_result. destruct (1 <? s_i2 st)%nat eqn:E; [|discriminate]. intros _. apply Nat.ltb_lt; auto. }
  assert (Hnn : sts <> []).
  { intros ->. destruct bs; [auto|]. destruct Ss; discriminate. }
  unfold rows_result. destruct (rev sts) as [|last rs] eqn:Erev.
  { exfalso. apply Hnn. rewrite <- (rev_involutive sts), Erev. auto. }
  assert (Hlast : (1 <? s_i2 last)%nat = true).
  { apply Nat.ltb_lt, Hi2, in_rev. rewrite Erev. left; auto. }
  rewrite Hlast. replace (forallb _ sts) with true.
  2:{ symmetry. apply forallb_forall. intros st Hst. apply Nat.ltb_lt; auto. }
  cbn [rbind]. eexists. split; [reflexivity|]. intros sts' o E. inversion E. subst sts' o. cbn.
  rewrite map_length. split; [congruence|]. split.
  - eexists. eexists. split; [reflexivity|]. split; [reflexivity|]. rewrite !map_length. split; congruence.
  - intros ->. split; auto. eexists. split; [reflexivity|]. rewrite map_length.
    assert (HI : forall l sts', length (interface_passes l sts') = S (length sts')).
    { intros l sts'. revert l. induction sts' as [|st r IH]; intros l; cbn; auto. }
    rewrite HI. lia.
Qed.

(* ---------- one channel ---------- *)

(* files of an interface with one channel: everything goes through, or everything comes back *)
Definition clear_front : stored := mk_stored (M2 [[0]; [1]]) (M2 [[0]]).
Definition clear_rear : stored := mk_stored (M2 [[1]; [0]]) (M2 [[0]]).
Definition shiny_front : stored := mk_stored (M2 [[1]; [0]]) (M2 [[0]]).

Lemma single_conserves a b : a + b = 1 -> file_conserves 1 1 (mk_stored (M2 [[a]; [b]]) (M2 [[0]])).
Proof.
  intros H. split; [split|].
  - cbn. split; auto. intros r [<-|[<-|[]]]; auto.
  - reflexivity.
  - intros w k _ Hk. replace k with 0%nat by lia. cbn. unfold col_total. simpl. lra.
Qed.

(* a grid with one direction in each hemisphere *)
Lemma one_channel : exists g t,
  valid_request 1 (2 * PI / INR 2) 1 /\ make_angle_vector 1 (2 * PI / INR 2) 1 SpLinear = Ok g /\
  length (g_av g) = 2%nat /\ m_fold 2 (2 * PI / INR 2) /\ relabel_ok 1 2 g /\
  good_direction (2 * PI / INR 2) (PI / 4) PhiAll /\
  (forall nw, make_v0 g (PI / 4) PhiAll nw = Ok (repeat [1] nw)) /\ 0 < Rabs (cos t) /\
  forall alpha thick (f0 b0 f1 : stored) thresh a b p q u v,
    f_RT f0 = M2 [[a]; [b]] -> f_RT b0 = M2 [[q]; [p]] -> f_RT f1 = M2 [[u]; [v]] ->
    build_setup g (2 * PI / INR 2) [alpha] thick f0 b0 f1 thresh =
      Ok (mk_setup (M2 [[a]]) (M2 [[b]]) (f_A f0) (M2 [[p]]) (M2 [[q]]) (f_A b0) (M2 [[u]]) (M2 [[v]]) (f_A f1)
            [[1]] [[1]] (make_D [alpha] thick [t]) thresh).
Proof.
  pose proof PI_RGT_0 as HPI.
  assert (Hv : valid_request 1 (2 * PI / INR 2) 1) by (repeat split; try lia; try lra; apply Rdiv_lt_0_compat; simpl; lra).
  destruct (make_angle_vector 1 (2 * PI / INR 2) 1 SpLinear) as [g|] eqn:Hg.
  2:{ exfalso. revert Hg. unfold make_angle_vector. discriminate. }
  assert (Hm : m_fold 2 (2 * PI / INR 2)) by (split; [lia|auto]).
  assert (Hok : relabel_ok 1 2 g) by (left; reflexivity).
  destruct (C08_ex 1 (2 * PI / INR 2) 1 SpLinear g 2 Hv Hg Hm Hok) as (h & u & d & Hh & Eud & [Su [Cu _]] & [Sd [Cd _]] & _).
  assert (HD : (length (g_av g) / 2)%nat = 1%nat).
  { rewrite (g_half 1 (2 * PI / INR 2) 1 SpLinear g Hv Hg). unfold off. simpl. unfold ring_count. simpl.
    rewrite (Zceil_unique (1 * 1) 1) by (simpl; lra). reflexivity. }
  assert (H1 : h = 1%nat) by (rewrite Hh in HD; rewrite Nat.mul_comm, Nat.div_mul in HD; lia).
  subst h. rewrite Nat.mul_1_r in Hh.
  assert (Unit : forall x, has_shape x 1 1 -> (exists r, column_is_unit x 1 0 r) -> x = [[1]]).
  { intros x [S1 S2] [r [Hr Hc]]. destruct x as [|xr [|]]; try discriminate.
    specialize (S2 xr (or_introl eq_refl)). destruct xr as [|x0 [|]]; try discriminate.
    specialize (Hc 0%nat ltac:(lia)). replace r with 0%nat in Hc by lia. unfold entry in Hc. simpl in Hc. subst. auto. }
  rewrite (Unit u Su (Cu 0%nat ltac:(lia))), (Unit d Sd (Cd 0%nat ltac:(lia))) in Eud. clear u d Su Cu Sd Cd.
  assert (Hgood : good_direction (2 * PI / INR 2) (PI / 4) PhiAll) by (split; [lra|auto]).
  destruct (v0_good 1 _ 1 SpLinear g 1 Hv Hg Hh (PI / 4) PhiAll Hgood) as [row [Hrow [L1 [L2 L3]]]].
  destruct row as [|x [|]]; try discriminate. simpl in L2. assert (x = 1) by lra. subst x. clear L2 L3 L1.
  destruct (g_av g) as [|r0 l] eqn:Eav; [discriminate|].
  exists g, (a_theta r0). rewrite Eav. do 6 (split; auto). split.
  { intros nw. unfold make_v0. unfold fold_phi_in in Hrow. rewrite Hrow. auto. }
  split.
  { apply Rabs_pos_lt.
    assert (Ht : 0 < a_theta r0 < PI / 2).
    { apply (theta_upper 1 (2 * PI / INR 2) 1 SpLinear g 1 Hv Hg); [rewrite Eav; exact Hh|]. rewrite Eav. left. reflexivity. }
    assert (0 < cos (a_theta r0)) by (apply cos_gt_0; lra). lra. }
  intros alpha thick f0 b0 f1 thresh a b p q u' v' E0 E1 E2. unfold build_setup. rewrite Eud. cbn [rbind fst snd].
  rewrite Eav, HD, E0, E1, E2. reflexivity.
Qed.

Definition one_setup (a b p q u v e thresh : R) : mm_setup :=
  mk_setup (M2 [[a]]) (M2 [[b]]) (M2 [[0]]) (M2 [[p]]) (M2 [[q]]) (M2 [[0]]) (M2 [[u]]) (M2 [[v]]) (M2 [[0]])
    [[1]] [[1]] [[e]] thresh.

Lemma go_one s x : go_on s x = true <-> exists v, In v (s_vf1 x) /\ m_thresh s < rsum v.
Proof. apply go_on_iff. Qed.

(* one pass, after which nothing above the threshold is left *)
Lemma one_pass prof a b p q u v e thresh : thresh < b -> b * e * u * e * p <= thresh ->
  exists st, mm_loop prof (one_setup a b p q u v e thresh) 1 (mm_init (one_setup a b p q u v e thresh) [[1]]) = Some st /\
    s_i2 st = 2%nat /\ sum02 1 (s_vr st) = [a + b * e * u * e * q] /\ sum02 1 (s_vt st) = [b * e * v] /\
    sum0 1 (s_A st) = [b * (1 - e) + b * e * u * (1 - e)].
Proof.
  intros H1 H2. set (s := one_setup a b p q u v e thresh).
  assert (G0 : go_on s (mm_init s [[1]]) = true).
  { apply go_one. eexists. split; [left; reflexivity|]. cbn. lra. }
  assert (G1 : go_on s (pass prof s (mm_init s [[1]])) = false).
  { destruct (go_on s (pass prof s (mm_init s [[1]]))) eqn:E; auto. apply go_one in E. destruct E as [x [Hx Hl]]. exfalso.
    destruct prof; cbn in Hx; destruct Hx as [<-|[]]; cbn in Hl; lra. }
  exists (pass prof s (mm_init s [[1]])). split.
  { cbn [mm_loop]. rewrite G0. cbn [mm_loop]. rewrite G1. auto. }
  destruct prof; cbn; repeat split; f_equal; ring.
Qed.

Lemma no_pass prof a b p q u v e thresh fuel : b <= thresh ->
  exists st, mm_loop prof (one_setup a b p q u v e thresh) fuel (mm_init (one_setup a b p q u v e thresh) [[1]]) = Some st /\
    s_i2 st = 1%nat /\ sum02 1 (s_vr st) = [a].
Proof.
  intros H. set (s := one_setup a b p q u v e thresh).
  assert (G : go_on s (mm_init s [[1]]) = false).
  { destruct (go_on s (mm_init s [[1]])) eqn:E; auto. apply go_one in E. destruct E as [x [Hx Hl]]. exfalso.
    cbn in Hx; destruct Hx as [<-|[]]; cbn in Hl; lra. }
  exists (mm_init s [[1]]). split.
  { destruct fuel; cbn [mm_loop]; rewrite G; auto. }
  cbn. repeat split. f_equal. ring.
Qed.

Lemma e_half : exp (-1) < 1 / 2.
Proof.
  replace (-1) with (- (1)) by ring. rewrite exp_Ropp. assert (H : 1 + 1 < exp 1) by (apply exp_ineq1; lra).
  apply Rmult_lt_reg_l with (exp 1); [lra|]. rewrite Rinv_r by lra. lra.
Qed.

(* two bulk layers behind perfectly clear interfaces: each absorbs more than half of the light that falls on the structure *)
Lemma bulks_too_much : exists n phi_sym c sp g m theta phi_in bs fronts rears thresh prof fuel sts o,
  valid_request n phi_sym c /\ make_angle_vector n phi_sym c sp = Ok g /\ length (g_av g) = 2%nat /\ m_fold m phi_sym /\
  relabel_ok n m g /\ good_direction phi_sym theta phi_in /\ length bs = 2%nat /\
  (forall b, In b bs -> length (bk_alphas b) = 1%nat /\ 0 < bk_thick b /\ forall a, In a (bk_alphas b) -> 0 <= a) /\
  (forall f, In f fronts \/ In f rears -> file_conserves 1 1 f) /\ length fronts = 3%nat /\ length rears = 2%nat /\
  calculate_RAT_bulks n phi_sym c sp theta phi_in 1 bs fronts rears thresh prof fuel = Ok (Some (sts, o)) /\
  ro_T o <> None /\ ro_A_interface o <> None /\ 1 < absorbed_in_bulks o 2 0.
Proof.
  destruct one_channel as (g & t & Hv & Hg & Hl & Hm & Hok & Hd & Hv0 & Hc & HB).
  set (bk := mk_bulk [Rabs (cos t)] 1).
  assert (HS : build_setup g (2 * PI / INR 2) (bk_alphas bk) (bk_thick bk) clear_front clear_rear clear_front (1 / 2) =
               Ok (one_setup 0 1 0 1 0 1 (exp (-1)) (1 / 2))).
  { cbn [bk_alphas bk_thick bk]. rewrite (HB _ _ clear_front clear_rear clear_front (1 / 2) 0 1 0 1 0 1) by reflexivity.
    unfold one_setup, make_D. cbn [map bk_alphas bk_thick bk].
    replace (- Rabs (cos t) * 1 / Rabs (cos t)) with (-1) by (field; lra). reflexivity. }
  destruct (one_pass true 0 1 0 1 0 1 (exp (-1)) (1 / 2)) as (st & El & Ei & ER & ET & EA); [lra|lra|].
  exists 1%nat, (2 * PI / INR 2), 1, SpLinear, g, 2%nat, (PI / 4), PhiAll, [bk; bk], [clear_front; clear_front; clear_front],
    [clear_rear; clear_rear], (1 / 2), true, 1%nat, [st; st],
    (mk_rows (map (fun x => sum02 1 (s_vr x)) [st; st]) (Some (map (fun x => sum02 1 (s_vt x)) [st; st]))
       (Some (map (fun x => sum0 1 (s_A x)) [st; st]))
       (Some (map (sum02 1) (interface_passes [] [st; st]))) true).
  do 7 (split; auto). split.
  { intros b Hb. assert (b = bk) by (destruct Hb as [->|[->|[]]]; auto). subst b. cbn. repeat split; try lra.
    intros a [<-|[]]. lra. }
  split.
  { intros f Hf. assert (E : f = clear_front \/ f = clear_rear) by (cbn in Hf; intuition auto).
    destruct E as [-> | ->]; apply single_conserves; lra. }
  do 2 (split; auto). split.
  { unfold calculate_RAT_bulks. rewrite Hg. cbn [rbind fold_phi_in]. rewrite Hv0. cbn [rbind repeat bulk_setups].
    unfold bulk_setup, list_item. cbn [nth_error rbind]. rewrite HS. cbn [rbind run_bulks]. rewrite El.
    unfold rows_result. cbn [rev app forallb map]. rewrite Ei. reflexivity. }
  do 2 (split; [discriminate|]).
  unfold absorbed_in_bulks, A_row, cell. cbn [ro_A_bulk map seq nth rsum]. rewrite EA. cbn [nth]. pose proof e_half. lra.
Qed.

(* light is kept out of the last bulk layer only: what the first one absorbed is not in the result *)
Lemma bulks_dropped : exists n phi_sym c sp g m theta phi_in bs fronts rears thresh prof fuel sts o,
  valid_request n phi_sym c /\ make_angle_vector n phi_sym c sp = Ok g /\ length (g_av g) = 2%nat /\ m_fold m phi_sym /\
  relabel_ok n m g /\ good_direction phi_sym theta phi_in /\ length bs = 2%nat /\
  (forall b, In b bs -> length (bk_alphas b) = 1%nat /\ 0 < bk_thick b /\ forall a, In a (bk_alphas b) -> 0 <= a) /\
  (forall f, In f fronts \/ In f rears -> file_conserves 1 1 f) /\ length fronts = 3%nat /\ length rears = 2%nat /\
  calculate_RAT_bulks n phi_sym c sp theta phi_in 1 bs fronts rears thresh prof fuel = Ok (Some (sts, o)) /\
  (exists st, nth_error sts 0 = Some st /\ 1 / 2 < nth 0 (sum0 1 (s_A st)) 0) /\
  ro_A_bulk o = None /\ ro_T o = None.
Proof.
  destruct one_channel as (g & t & Hv & Hg & Hl & Hm & Hok & Hd & Hv0 & Hc & HB).
  set (bk := mk_bulk [Rabs (cos t)] 1).
  assert (HD : make_D [Rabs (cos t)] 1 [t] = [[exp (-1)]]).
  { unfold make_D. cbn [map]. replace (- Rabs (cos t) * 1 / Rabs (cos t)) with (-1) by (field; lra). reflexivity. }
  assert (HS0 : build_setup g (2 * PI / INR 2) (bk_alphas bk) (bk_thick bk) clear_front clear_rear shiny_front (1 / 2) =
               Ok (one_setup 0 1 0 1 1 0 (exp (-1)) (1 / 2))).
  { cbn [bk_alphas bk_thick bk]. rewrite (HB _ _ clear_front clear_rear shiny_front (1 / 2) 0 1 0 1 1 0) by reflexivity.
    cbn [bk_alphas bk_thick bk]. rewrite HD. reflexivity. }
  assert (HS1 : build_setup g (2 * PI / INR 2) (bk_alphas bk) (bk_thick bk) shiny_front clear_rear clear_front (1 / 2) =
               Ok (one_setup 1 0 0 1 0 1 (exp (-1)) (1 / 2))).
  { cbn [bk_alphas bk_thick bk]. rewrite (HB _ _ shiny_front clear_rear clear_front (1 / 2) 1 0 0 1 0 1) by reflexivity.
    cbn [bk_alphas bk_thick bk]. rewrite HD. reflexivity. }
  destruct (one_pass false 0 1 0 1 1 0 (exp (-1)) (1 / 2)) as (st & El & Ei & ER & ET & EA); [lra|lra|].
  destruct (no_pass false 1 0 0 1 0 1 (exp (-1)) (1 / 2) 1) as (st' & El' & Ei' & ER'); [lra|].
  exists 1%nat, (2 * PI / INR 2), 1, SpLinear, g, 2%nat, (PI / 4), PhiAll, [bk; bk], [clear_front; shiny_front; clear_front],
    [clear_rear; clear_rear], (1 / 2), false, 1%nat, [st; st'],
    (mk_rows (map (fun x => sum02 1 (s_vr x)) [st; st']) None None None false).
  do 7 (split; auto). split.
  { intros b Hb. assert (b = bk) by (destruct Hb as [->|[->|[]]]; auto). subst b. cbn. repeat split; try lra.
    intros a [<-|[]]. lra. }
  split.
  { intros f Hf. assert (E : f = clear_front \/ f = clear_rear \/ f = shiny_front) by (cbn in Hf; intuition auto).
    destruct E as [-> | [-> | ->]]; apply single_conserves; lra. }
  do 2 (split; auto). split.
  { unfold calculate_RAT_bulks. rewrite Hg. cbn [rbind fold_phi_in]. rewrite Hv0. cbn [rbind repeat bulk_setups].
    unfold bulk_setup, list_item. cbn [nth_error rbind]. rewrite HS0. cbn [rbind]. rewrite HS1. cbn [rbind run_bulks].
    rewrite El, El'. unfold rows_result. cbn [rev app forallb map]. rewrite Ei'. reflexivity. }
  split; auto. exists st. split; auto. rewrite EA. cbn [nth]. pose proof e_half. pose proof (exp_pos (-1)). nra.
Qed.

(* light is kept out of the first bulk layer: an exception *)
Lemma bulks_error : exists n phi_sym c sp g m theta phi_in bs fronts rears thresh prof fuel,
  valid_request n phi_sym c /\ make_angle_vector n phi_sym c sp = Ok g /\ length (g_av g) = 2%nat /\ m_fold m phi_sym /\
  relabel_ok n m g /\ good_direction phi_sym theta phi_in /\ length bs = 2%nat /\
  (forall b, In b bs -> length (bk_alphas b) = 1%nat /\ 0 < bk_thick b /\ forall a, In a (bk_alphas b) -> 0 <= a) /\
  (forall f, In f fronts \/ In f rears -> file_conserves 1 1 f) /\ length fronts = 3%nat /\ length rears = 2%nat /\
  calculate_RAT_bulks n phi_sym c sp theta phi_in 1 bs fronts rears thresh prof fuel = Err ValueError.
Proof.
  destruct one_channel as (g & t & Hv & Hg & Hl & Hm & Hok & Hd & Hv0 & Hc & HB).
  set (bk := mk_bulk [Rabs (cos t)] 1).
  assert (HD : make_D [Rabs (cos t)] 1 [t] = [[exp (-1)]]).
  { unfold make_D. cbn [map]. replace (- Rabs (cos t) * 1 / Rabs (cos t)) with (-1) by (field; lra). reflexivity. }
  assert (HS0 : build_setup g (2 * PI / INR 2) (bk_alphas bk) (bk_thick bk) shiny_front clear_rear clear_front (1 / 2) =
               Ok (one_setup 1 0 0 1 0 1 (exp (-1)) (1 / 2))).
  { cbn [bk_alphas bk_thick bk]. rewrite (HB _ _ shiny_front clear_rear clear_front (1 / 2) 1 0 0 1 0 1) by reflexivity.
    cbn [bk_alphas bk_thick bk]. rewrite HD. reflexivity. }
  assert (HS1 : build_setup g (2 * PI / INR 2) (bk_alphas bk) (bk_thick bk) clear_front clear_rear clear_front (1 / 2) =
               Ok (one_setup 0 1 0 1 0 1 (exp (-1)) (1 / 2))).
  { cbn [bk_alphas bk_thick bk]. rewrite (HB _ _ clear_front clear_rear clear_front (1 / 2) 0 1 0 1 0 1) by reflexivity.
    cbn [bk_alphas bk_thick bk]. rewrite HD. reflexivity. }
  destruct (one_pass false 0 1 0 1 0 1 (exp (-1)) (1 / 2)) as (st & El & Ei & ER & ET & EA); [lra|lra|].
  destruct (no_pass false 1 0 0 1 0 1 (exp (-1)) (1 / 2) 1) as (st' & El' & Ei' & ER'); [lra|].
  exists 1%nat, (2 * PI / INR 2), 1, SpLinear, g, 2%nat, (PI / 4), PhiAll, [bk; bk], [shiny_front; clear_front; clear_front],
    [clear_rear; clear_rear], (1 / 2), false, 1%nat.
  do 7 (split; auto). split.
  { intros b Hb. assert (b = bk) by (destruct Hb as [->|[->|[]]]; auto). subst b. cbn. repeat split; try lra.
    intros a [<-|[]]. lra. }
  split.
  { intros f Hf. assert (E : f = clear_front \/ f = clear_rear \/ f = shiny_front) by (cbn in Hf; intuition auto).
    destruct E as [-> | [-> | ->]]; apply single_conserves; lra. }
  do 2 (split; auto).
  unfold calculate_RAT_bulks. rewrite Hg. cbn [rbind fold_phi_in]. rewrite Hv0. cbn [rbind repeat bulk_setups].
  unfold bulk_setup, list_item. cbn [nth_error rbind]. rewrite HS0. cbn [rbind]. rewrite HS1. cbn [rbind run_bulks].
  rewrite El, El'. unfold rows_result. cbn [rev app forallb map]. rewrite Ei, Ei'. reflexivity.
Qed.

(* ---------- interfaces ---------- *)

Lemma per_pass_app l1 l2 w : per_pass_total (l1 ++ l2) w = per_pass_total l1 w + per_pass_total l2 w.
Proof. unfold per_pass_total. rewrite map_app. apply rsum_app. Qed.

Lemma passes_nth sts : forall before w i, (i <= length sts)%nat -> exists l, nth_error (interface_passes before sts) i = Some l /\
  per_pass_total l w =
    match i with O => per_pass_total before w
    | S k => match nth_error sts k with Some st => A_back_at st w | None => 0 end end +
    match nth_error sts i with Some st => A_front_at st w | None => 0 end.
Proof.
  induction sts as [|st r IH]; intros before w i Hi; cbn [length] in Hi.
  - destruct i; [|lia]. exists before. split; auto. cbn [nth_error]. ring.
  - destruct i.
    + eexists. split; [reflexivity|]. cbn [nth_error]. rewrite per_pass_app. reflexivity.
    + destruct (IH (s_a1 st) w i) as [l [E1 E2]]; [lia|]. exists l. split; [exact E1|]. rewrite E2.
      cbn [nth_error]. destruct i; reflexivity.
Qed.

Lemma bulks_interfaces n phi_sym c sp theta phi_in nw bs fronts rears thresh prof fuel sts o a :
  calculate_RAT_bulks n phi_sym c sp theta phi_in nw bs fronts rears thresh prof fuel = Ok (Some (sts, o)) ->
  ro_A_interface o = Some a ->
  length a = S (length bs) /\
  forall i w, (i <= length bs)%nat -> (w < nw)%nat -> cell a i w = lost_in_interface sts i w.
Proof.
  intros H Ha. destruct (bulks_inv _ _ _ _ _ _ _ _ _ _ _ _ _ _ _ H) as (g & v0 & Ss & Hg & Hv & Hs & Hr & Ho).
  destruct (bulk_setups_nth _ _ _ _ _ _ _ _ Hs) as [L1 _]. destruct (run_bulks_nth _ _ _ _ _ Hr) as [L2 _].
  destruct (rows_ok _ _ _ _ Ho) as (_ & _ & [(_ & _ & _ & HI & _)|(_ & _ & _ & HI & _)]); rewrite Ha in HI; [|discriminate].
  destruct prof; [|discriminate]. inversion HI. subst a. clear HI Ha. split.
  - rewrite map_length. assert (HI : forall l sts', length (interface_passes l sts') = S (length sts')).
    { intros l sts'. revert l. induction sts' as [|st r IH]; intros l; cbn; auto. }
    rewrite HI. congruence.
  - intros i w Hi Hw. unfold cell. destruct (passes_nth sts [] w i) as [l [E1 E2]]; [lia|].
    rewrite (nth_error_nth (map (sum02 nw) (interface_passes [] sts)) i []  (x := sum02 nw l)) by (rewrite nth_error_map, E1; auto).
    rewrite sum02_nth by auto. rewrite E2. unfold lost_in_interface. destruct i; auto.
Qed.
