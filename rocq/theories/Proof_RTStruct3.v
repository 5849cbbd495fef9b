(* The constructor of rt_structure (C134-C136), lookup tables, results *)
From Coq Require Import Reals List ZArith Bool String Lia Lra.
From Verif Require Import Base Lib Model_Angles Model_Ideal Model_MatMul Model_Optics Model_RayIface Model_RayStack
  Model_RT Model_Surface Model_Cache Model_RTStruct Spec_RTStruct Spec_Surface Proof_Surface.
Import ListNotations.
Local Notation length := List.length.
Open Scope list_scope.
Open Scope R_scope.

Lemma nth_error_set {A} n (x : A) : forall l i, (n < length l)%nat ->
  nth_error (set_nth n x l) i = if Nat.eqb i n then Some x else nth_error l i.
Proof.
  induction n as [|n IH]; intros [|a l] i H; cbn [length] in H; try lia; destruct i as [|i]; cbn [set_nth nth_error Nat.eqb]; auto.
  apply IH. lia.
Qed.

Lemma nth_error_lt {A} (l : list A) i x : nth_error l i = Some x -> (i < length l)%nat.
Proof. intros H. apply nth_error_Some. congruence. Qed.

Lemma surface_at_inv S o s : surface_at S o = Some s ->
  exists ob p, nth_error (objects S) o = Some ob /\ nth_error (arrays S) (so_pts ob) = Some p /\ s = with_pts p (so_rest ob).
Proof.
  unfold surface_at. destruct (nth_error (objects S) o) as [ob|]; [|discriminate].
  destruct (nth_error (arrays S) (so_pts ob)) as [p|] eqn:E; [|discriminate]. intros H. injection H as <-. eauto.
Qed.

(* ---------- copies ---------- *)

Definition extends (S S' : store) : Prop :=
  exists a b, arrays S' = arrays S ++ a /\ objects S' = objects S ++ b.

Lemma extends_refl S : extends S S.
Proof. exists [], []. rewrite !app_nil_r. auto. Qed.
Lemma extends_trans S1 S2 S3 : extends S1 S2 -> extends S2 S3 -> extends S1 S3.
Proof. intros [a [b [A B]]] [c [d [C D]]]. exists (a ++ c), (b ++ d). rewrite C, D, A, B, !app_assoc. auto. Qed.
Lemma extends_obj S S' o ob : extends S S' -> nth_error (objects S) o = Some ob -> nth_error (objects S') o = Some ob.
Proof. intros [a [b [A B]]] H. rewrite B, nth_error_app1; auto. apply nth_error_lt in H. auto. Qed.
Lemma extends_arr S S' o p : extends S S' -> nth_error (arrays S) o = Some p -> nth_error (arrays S') o = Some p.
Proof. intros [a [b [A B]]] H. rewrite A, nth_error_app1; auto. apply nth_error_lt in H. auto. Qed.
Lemma extends_at S S' o s : extends S S' -> surface_at S o = Some s -> surface_at S' o = Some s.
Proof.
  intros E H. apply surface_at_inv in H. destruct H as [ob [p [H1 [H2 ->]]]]. unfold surface_at.
  rewrite (extends_obj _ _ _ _ E H1), (extends_arr _ _ _ _ E H2). auto.
Qed.

Lemma copy_all_spec : forall l S, (forall o, In o l -> exists s, surface_at S o = Some s) ->
  exists S', copy_all S l = Ok (S', seq (length (objects S)) (length l)) /\ extends S S' /\
    length (arrays S') = (length (arrays S) + length l)%nat /\
    forall i o, nth_error l i = Some o -> exists ob s, surface_at S o = Some s /\
      nth_error (objects S') (length (objects S) + i) = Some ob /\ so_pts ob = (length (arrays S) + i)%nat /\
      surface_at S' (length (objects S) + i) = Some s.
Proof.
  induction l as [|o l IH]; intros S H.
  - exists S. cbn [copy_all length seq]. split; auto. split; [apply extends_refl|]. split; [lia|]. intros i o Hi. destruct i; discriminate.
  - destruct (H o (or_introl eq_refl)) as [s Hs]. destruct (surface_at_inv _ _ _ Hs) as [ob [p [H1 [H2 E]]]].
    cbn [copy_all]. unfold deepcopy. rewrite H1, H2. cbn [rbind fst snd].
    set (S1 := {| arrays := arrays S ++ [p]; objects := objects S ++ [{| so_pts := length (arrays S); so_rest := so_rest ob |}] |}).
    assert (X1 : extends S S1) by (exists [p], [{| so_pts := length (arrays S); so_rest := so_rest ob |}]; auto).
    destruct (IH S1) as [S' [E' [X [L G]]]].
    { intros o' Ho. destruct (H o' (or_intror Ho)) as [s' Hs']. exists s'. eapply extends_at; eauto. }
    assert (LO : length (objects S1) = Datatypes.S (length (objects S))) by (cbn [S1 objects]; rewrite app_length; cbn; lia).
    assert (LA : length (arrays S1) = Datatypes.S (length (arrays S))) by (cbn [S1 arrays]; rewrite app_length; cbn; lia).
    rewrite LO, LA in *. exists S'. rewrite E'. cbn [rbind fst snd length seq].
    split; [reflexivity|]. split; [eapply extends_trans; eauto|]. split; [lia|].
    intros i o' Hi. destruct i as [|i]; cbn [nth_error] in Hi.
    + injection Hi as <-. exists {| so_pts := length (arrays S); so_rest := so_rest ob |}, s. split; auto.
      assert (O1 : nth_error (objects S1) (length (objects S)) = Some {| so_pts := length (arrays S); so_rest := so_rest ob |}).
      { cbn [S1 objects]. rewrite nth_error_app2 by lia. rewrite Nat.sub_diag. auto. }
      rewrite Nat.add_0_r. split; [eapply extends_obj; eauto|]. split; [cbn; lia|].
      eapply extends_at; eauto. unfold surface_at. rewrite O1. cbn [so_pts so_rest S1 arrays].
      rewrite nth_error_app2 by lia. rewrite Nat.sub_diag. cbn [nth_error]. subst s. auto.
    + destruct (G i o' Hi) as [ob' [s' [G1 [G2 [G3 G4]]]]]. exists ob', s'.
      destruct (H o' (or_intror (nth_error_In _ _ Hi))) as [s2 Hs2].
      pose proof (extends_at _ _ _ _ X1 Hs2). split; [congruence|].
      replace (length (objects S) + Datatypes.S i)%nat with (Datatypes.S (length (objects S)) + i)%nat by lia.
      split; auto. split; [lia|auto].
Qed.

(* ---------- shifts ---------- *)

Lemma shift_at_spec S o dz ob s : nth_error (objects S) o = Some ob -> surface_at S o = Some s ->
  let S' := shift_at S o dz in
  surface_at S' o = Some (shift dz s) /\
  (exists ob', nth_error (objects S') o = Some ob' /\ so_pts ob' = so_pts ob) /\
  (forall o' ob', o' <> o -> nth_error (objects S) o' = Some ob' -> nth_error (objects S') o' = Some ob') /\
  (forall o' ob', o' <> o -> nth_error (objects S) o' = Some ob' -> so_pts ob' <> so_pts ob -> surface_at S' o' = surface_at S o').
Proof.
  intros Ho Hs. destruct (surface_at_inv _ _ _ Hs) as [ob2 [p [H1 [H2 E]]]]. assert (ob2 = ob) by congruence. subst ob2.
  cbn zeta. unfold shift_at. rewrite Ho, H2.
  pose proof (nth_error_lt _ _ _ Ho) as LO. pose proof (nth_error_lt _ _ _ H2) as LA.
  set (s' := shift dz (with_pts p (so_rest ob))). subst s.
  split.
  { unfold surface_at. cbn [objects arrays]. rewrite nth_error_set by auto. rewrite Nat.eqb_refl. cbn [so_pts so_rest].
    rewrite nth_error_set by auto. rewrite Nat.eqb_refl. reflexivity. }
  split.
  { eexists. cbn [objects]. rewrite nth_error_set by auto. rewrite Nat.eqb_refl. split; [reflexivity|]. reflexivity. }
  split.
  { intros o' ob' N H. cbn [objects]. rewrite nth_error_set by auto. destruct (Nat.eqb_spec o' o); [contradiction|auto]. }
  intros o' ob' N H P. unfold surface_at. cbn [objects arrays]. rewrite nth_error_set by auto.
  destruct (Nat.eqb_spec o' o); [contradiction|]. rewrite H. rewrite nth_error_set by auto.
  destruct (Nat.eqb_spec (so_pts ob') (so_pts ob)); [contradiction|]. auto.
Qed.

Lemma py_index_nat {A} (l : list A) i x : nth_error l i = Some x -> py_index l (Z.of_nat i) = Ok x.
Proof.
  intros H. unfold py_index. destruct (Z.ltb_spec (Z.of_nat i) 0); [lia|]. destruct (Z.ltb_spec (Z.of_nat i) 0); [lia|].
  rewrite Nat2Z.id, H. auto.
Qed.
Lemma py_index_over {A} (l : list A) i : (length l <= i)%nat -> py_index l (Z.of_nat i) = Err IndexError.
Proof.
  intros H. unfold py_index. destruct (Z.ltb_spec (Z.of_nat i) 0); [lia|]. destruct (Z.ltb_spec (Z.of_nat i) 0); [lia|].
  rewrite Nat2Z.id. apply nth_error_None in H. rewrite H. auto.
Qed.

Lemma shift_all_spec cw a0 : forall m q0 i S, (i + m <= length cw)%nat ->
  (forall j, (j < m)%nat -> exists ob s, nth_error (objects S) (q0 + j) = Some ob /\ so_pts ob = (a0 + i + j)%nat /\
     surface_at S (q0 + j) = Some s) ->
  exists S', shift_all S cw i (seq q0 m) = Ok S' /\
    (forall j s, (j < m)%nat -> surface_at S (q0 + j) = Some s -> surface_at S' (q0 + j) = Some (shift (nth (i + j) cw 0) s)) /\
    (forall o ob, (o < q0)%nat -> nth_error (objects S) o = Some ob -> (so_pts ob < a0 + i)%nat -> surface_at S' o = surface_at S o).
Proof.
  induction m as [|m IH]; intros q0 i S Hi H.
  - exists S. cbn [seq shift_all]. split; auto. split; [intros j s Hj; lia|auto].
  - cbn [seq shift_all].
    assert (N : nth_error cw i = Some (nth i cw 0)) by (apply nth_error_nth'; lia).
    rewrite (py_index_nat _ _ _ N). cbn [rbind].
    destruct (H 0%nat) as [ob [s [H1 [H2 H3]]]]; [lia|]. rewrite Nat.add_0_r in H1, H2, H3.
    destruct (shift_at_spec S q0 (nth i cw 0) ob s H1 H3) as [A1 [[ob1 [A2 A2']] [A3 A4]]].
    set (S1 := shift_at S q0 (nth i cw 0)) in *.
    assert (K : forall j, (j < m)%nat -> exists ob s, nth_error (objects S) (Datatypes.S q0 + j) = Some ob /\ so_pts ob = (a0 + Datatypes.S i + j)%nat /\
     surface_at S (Datatypes.S q0 + j) = Some s /\ nth_error (objects S1) (Datatypes.S q0 + j) = Some ob /\ surface_at S1 (Datatypes.S q0 + j) = Some s).
    { intros j Hj. destruct (H (Datatypes.S j)) as [ob' [s' [B1 [B2 B3]]]]; [lia|].
      replace (q0 + Datatypes.S j)%nat with (Datatypes.S q0 + j)%nat in * by lia. exists ob', s'.
      split; auto. split; [lia|]. split; auto. split; [apply A3; auto; lia|]. rewrite (A4 _ ob'); auto; lia. }
    destruct (IH (Datatypes.S q0) (Datatypes.S i) S1) as [S' [E [C1 C2]]]; [lia| |].
    { intros j Hj. destruct (K j Hj) as [ob' [s' [_ [B2 [_ [B4 B5]]]]]]. eauto. }
    exists S'. rewrite E. split; [reflexivity|]. split.
    + intros j s' Hj Hs'. destruct j as [|j].
      * rewrite !Nat.add_0_r. rewrite Nat.add_0_r in Hs'. rewrite (C2 q0 ob1); [congruence|lia|auto|lia].
      * destruct (K j) as [ob' [s2 [_ [_ [B3 [_ B5]]]]]]; [lia|].
        replace (q0 + Datatypes.S j)%nat with (Datatypes.S q0 + j)%nat in * by lia.
        replace (i + Datatypes.S j)%nat with (Datatypes.S i + j)%nat by lia. apply C1; [lia|congruence].
    + intros o ob' Ho Hob Hp. rewrite (C2 o ob'); [apply (A4 o ob'); auto; lia|lia|apply A3; auto; lia|lia].
Qed.

Lemma cum_nth ws i : (i <= length ws)%nat -> nth i (map (fun c => c * 10 ^ 6) (cumsum ([0] ++ ws))) 0 = 10 ^ 6 * depth ws i.
Proof.
  intros H. assert (L : forall l acc, length (cumsum_go acc l) = length l) by (induction l as [|a l IH]; intros; cbn; auto).
  rewrite (nth_map_lt (fun c => c * 10 ^ 6) _ i 0 0) by (unfold cumsum; rewrite L, app_length; cbn [length]; lia).
  rewrite Rmult_comm. f_equal.
  unfold cumsum, depth. cbn [app cumsum_go]. replace (0 + 0) with 0 by lra.
  assert (G : forall l acc j, (j <= length l)%nat -> nth j (acc :: cumsum_go acc l) 0 = acc + rsum (firstn j l)).
  { clear. induction l as [|a l IH]; intros acc j Hj; cbn [length] in Hj.
    - assert (j = 0)%nat by lia. subst. cbn. lra.
    - destruct j as [|j]; [cbn; lra|]. cbn [cumsum_go nth firstn rsum]. change (nth j ((acc + a) :: cumsum_go (acc + a) l) 0 = acc + (a + rsum (firstn j l))).
      rewrite IH by lia. lra. }
  rewrite G by auto. lra.
Qed.
Lemma cum_length ws : length (map (fun c => c * 10 ^ 6) (cumsum ([0] ++ ws))) = Datatypes.S (length ws).
Proof.
  assert (L : forall l acc, length (cumsum_go acc l) = length l) by (induction l as [|a l IH]; intros; cbn; auto).
  rewrite map_length. unfold cumsum. rewrite L. reflexivity.
Qed.

Lemma shift_lowered dz s : lowered dz s (shift dz s).
Proof.
  unfold lowered. split; [reflexivity|]. split; [reflexivity|]. split; [reflexivity|]. split; [reflexivity|].
  split; [reflexivity|]. set (s' := shift dz s).
  assert (Z0 : su_zmin s' = lmin (map vz (su_pts s'))) by reflexivity.
  assert (Z1 : su_zmax s' = lmax (map vz (su_pts s'))) by reflexivity.
  split.
  { intros p Hp. assert (Hi : In (vz p) (map vz (su_pts s'))) by (apply in_map; auto).
    assert (Hn : map vz (su_pts s') <> []) by (intros E; rewrite E in Hi; destruct Hi).
    destruct (lmin_spec _ Hn) as [_ A]. destruct (lmax_spec _ Hn) as [_ B]. rewrite Z0, Z1. split; auto. }
  split.
  { intros Hp. assert (Hn : map vz (su_pts s') <> []) by (destruct (su_pts s'); [contradiction|discriminate]).
    destruct (lmin_spec _ Hn) as [A _]. destruct (lmax_spec _ Hn) as [B _]. rewrite <- Z0 in A. rewrite <- Z1 in B.
    apply in_map_iff in A. apply in_map_iff in B. destruct A as [p [A1 A2]]. destruct B as [q [B1 B2]]. exists p, q. auto. }
  repeat split; reflexivity.
Qed.

Lemma structure_ok {M} S textures (materials : list M) widths incidence transmission :
  (forall o, In o textures -> exists s, surface_at S o = Some s) -> (length textures <= length widths + 1)%nat ->
  exists S' surfaces cw, new_rt_structure S textures materials widths incidence transmission =
      Ok (S', surfaces, incidence :: materials ++ [transmission], cw) /\
    length surfaces = length textures /\
    (forall o s, surface_at S o = Some s -> surface_at S' o = Some s) /\
    (forall i o, nth_error textures i = Some o -> exists q s s', nth_error surfaces i = Some q /\
       surface_at S o = Some s /\ surface_at S' q = Some s' /\ lowered (10 ^ 6 * depth widths i) s s').
Proof.
  intros Hv Hl. unfold new_rt_structure. cbn zeta.
  destruct (copy_all_spec textures S Hv) as [S1 [E1 [X1 [L1 G1]]]]. rewrite E1. cbn [rbind fst snd].
  set (cw := map _ _).
  destruct (shift_all_spec cw (length (arrays S)) (length textures) (length (objects S)) 0 S1) as [S' [E2 [C1 C2]]].
  { unfold cw. rewrite cum_length. lia. }
  { intros j Hj. destruct (nth_error textures j) as [o|] eqn:Eo; [|apply nth_error_None in Eo; lia].
    destruct (G1 j o Eo) as [ob [s [_ [B2 [B3 B4]]]]]. exists ob, s. rewrite Nat.add_0_r. auto. }
  rewrite E2. cbn [rbind]. exists S', (seq (length (objects S)) (length textures)), cw.
  split; [reflexivity|]. split; [apply seq_length|]. split.
  - intros o s Hs. destruct (surface_at_inv _ _ _ Hs) as [ob [p [H1 [H2 _]]]].
    rewrite (C2 o ob); [eapply extends_at; eauto| | |].
    + apply nth_error_lt in H1. auto.
    + eapply extends_obj; eauto.
    + apply nth_error_lt in H2. lia.
  - intros i o Hi. destruct (G1 i o Hi) as [ob [s [B1 [B2 [B3 B4]]]]].
    assert (Li : (i < length textures)%nat) by (apply nth_error_lt in Hi; auto).
    exists (length (objects S) + i)%nat, s, (shift (nth i cw 0) s).
    split; [rewrite nth_error_nth' with (d := 0%nat) by (rewrite seq_length; auto); rewrite seq_nth by auto; auto|].
    split; auto. split; [apply C1; auto|]. unfold cw. rewrite cum_nth by lia. apply shift_lowered.
Qed.

Lemma structure_too_many {M} S textures (materials : list M) widths incidence transmission :
  (forall o, In o textures -> exists s, surface_at S o = Some s) -> (length widths + 1 < length textures)%nat ->
  new_rt_structure S textures materials widths incidence transmission = Err IndexError.
Proof.
  intros Hv Hl. unfold new_rt_structure. cbn zeta.
  destruct (copy_all_spec textures S Hv) as [S1 [E1 [X1 [L1 G1]]]]. rewrite E1. cbn [rbind fst snd].
  set (cw := map _ _).
  assert (Lc : length cw = Datatypes.S (length widths)) by apply cum_length.
  assert (G : forall m q0 i S, (i <= length cw < i + m)%nat -> shift_all S cw i (seq q0 m) = Err IndexError).
  { clear - cw. induction m as [|m IH]; intros q0 i S H; [lia|]. cbn [seq shift_all].
    destruct (Nat.eq_dec i (length cw)) as [->|].
    - rewrite py_index_over by lia. auto.
    - assert (N : nth_error cw i = Some (nth i cw 0)) by (apply nth_error_nth'; lia).
      rewrite (py_index_nat _ _ _ N). cbn [rbind]. apply IH. lia. }
  rewrite G by lia. auto.
Qed.

(* ---------- lookup tables ---------- *)

Lemma rmap_all {A B} (f : A -> res B) (g : A -> B) l : (forall x, In x l -> f x = Ok (g x)) -> rmap f l = Ok (map g l).
Proof.
  induction l as [|a l IH]; intros H; auto. cbn [rmap map]. rewrite (H a) by (left; auto). cbn [rbind].
  rewrite IH by (intros; apply H; right; auto). auto.
Qed.

Lemma in_enumerate {A} (l : list A) i x : In (i, x) (enumerate l) <-> nth_error l i = Some x.
Proof.
  unfold enumerate. split.
  - intros H. apply In_nth_error in H. destruct H as [k Hk].
    assert (G : forall (l : list A) s k, nth_error (combine (seq s (length l)) l) k = option_map (fun x => ((s + k)%nat, x)) (nth_error l k)).
    { clear. induction l as [|a l IH]; intros s k; destruct k; cbn; auto; [rewrite Nat.add_0_r; auto|].
      rewrite IH. replace (Datatypes.S s + k)%nat with (s + Datatypes.S k)%nat by lia. auto. }
    rewrite G in Hk. destruct (nth_error l k) eqn:E; cbn in Hk; inversion Hk; subst. auto.
  - intros H.
    assert (G : forall (l : list A) s k x, nth_error l k = Some x -> In ((s + k)%nat, x) (combine (seq s (length l)) l)).
    { clear. induction l as [|a l IH]; intros s k x H; destruct k; cbn in *; try discriminate.
      - left. rewrite Nat.add_0_r. congruence.
      - right. replace (s + Datatypes.S k)%nat with (Datatypes.S s + k)%nat by lia. auto. }
    apply (G l 0%nat i x H).
Qed.
Lemma enumerate_len {A} (l : list A) : length (enumerate l) = length l.
Proof. unfold enumerate. rewrite combine_length, seq_length. lia. Qed.
Lemma nth_error_enum {A} (l : list A) i x : nth_error l i = Some x -> nth_error (enumerate l) i = Some (i, x).
Proof.
  intros H. unfold enumerate.
  assert (G : forall (l : list A) s k, nth_error (combine (seq s (length l)) l) k = option_map (fun x => ((s + k)%nat, x)) (nth_error l k)).
  { clear. induction l as [|a l IH]; intros s k; destruct k; cbn; auto; [rewrite Nat.add_0_r; auto|].
    rewrite IH. replace (Datatypes.S s + k)%nat with (s + Datatypes.S k)%nat by lia. auto. }
  rewrite G, H. auto.
Qed.

Section Tables.
  Context {M L : Type} (lw : L -> R).

  (* the record of interface i *)
  Definition info_of (t : texture L) : iface_info :=
    match x_layers t with
    | Some l => {| ii_tmm := 1; ii_n := length l; ii_prof := x_prof t; ii_widths := Some (map (fun l => lw l * 10 ^ 9) l) |}
    | None => {| ii_tmm := 0; ii_n := 0; ii_prof := None; ii_widths := None |}
    end.
  Definition request_of (inc trn : M) (mats : list M) (it : nat * texture L) : option (table_request M L) :=
    match x_layers (snd it) with
    | Some l => Some {| q_layers := l; q_inc := nth (fst it) mats inc; q_trn := nth (Datatypes.S (fst it)) mats trn;
                        q_name := rt_lookup_name (x_name (snd it)) (fst it);
                        q_coherent := match x_coh (snd it) with Some _ => false | None => true end;
                        q_coh := x_coh (snd it); q_prof := x_prof (snd it) |}
    | None => None
    end.

  Lemma plan_ok n (materials : list M) inc trn i t : n = Datatypes.S (length materials) -> (i < n)%nat ->
    plan_texture lw n materials inc trn i t = Ok (request_of inc trn (inc :: materials ++ [trn]) (i, t), info_of t).
  Proof.
    intros Hn Hi. unfold plan_texture, request_of, info_of. cbn [fst snd]. destruct (x_layers t) as [l|]; auto.
    assert (E1 : (if Nat.ltb 0 i then py_index materials (Z.of_nat i - 1) else Ok inc) = Ok (nth i (inc :: materials ++ [trn]) inc)).
    { destruct i as [|i]; [reflexivity|]. destruct (Nat.ltb_spec 0 (Datatypes.S i)); [|lia].
      replace (Z.of_nat (Datatypes.S i) - 1)%Z with (Z.of_nat i) by lia. apply py_index_nat.
      cbn [nth]. rewrite app_nth1 by lia. apply nth_error_nth'. lia. }
    assert (E2 : (if Nat.ltb i (n - 1) then py_index materials (Z.of_nat i) else Ok trn) = Ok (nth (Datatypes.S i) (inc :: materials ++ [trn]) trn)).
    { cbn [nth]. destruct (Nat.ltb_spec i (n - 1)).
      - apply py_index_nat. rewrite app_nth1 by lia. apply nth_error_nth'. lia.
      - rewrite app_nth2 by lia. replace (i - length materials)%nat with 0%nat by lia. auto. }
    rewrite E1. cbn [rbind]. rewrite E2. reflexivity.
  Qed.

  Lemma tables_ok textures (materials : list M) inc trn : length textures = Datatypes.S (length materials) ->
    exists qs infos, make_lookuptable_rt_structure lw textures materials inc trn = Ok (qs, infos) /\
      length infos = length textures /\
      (forall q, In q qs -> exists i t, nth_error textures i = Some t /\ q_name q = rt_lookup_name (x_name t) i) /\
      (forall i t, nth_error textures i = Some t -> exists f, nth_error infos i = Some f /\
        match x_layers t with
        | None => ii_tmm f = 0%nat /\ ii_n f = 0%nat
        | Some layers => ii_tmm f = 1%nat /\ ii_n f = length layers /\
            ii_widths f = Some (map (fun l => lw l * 10 ^ 9) layers) /\ ii_prof f = x_prof t /\
            exists q, In q qs /\ q_layers q = layers /\ q_name q = rt_lookup_name (x_name t) i /\
              nth_error (inc :: materials ++ [trn]) i = Some (q_inc q) /\
              nth_error (inc :: materials ++ [trn]) (Datatypes.S i) = Some (q_trn q) /\
              q_coh q = x_coh t /\ q_prof q = x_prof t /\ (q_coherent q = true <-> x_coh t = None)
        end).
  Proof.
    intros Hn. unfold make_lookuptable_rt_structure.
    rewrite (rmap_all _ (fun it => (request_of inc trn (inc :: materials ++ [trn]) it, info_of (snd it)))).
    2:{ intros [i t] Hi. apply in_enumerate in Hi. apply plan_ok; auto. cbn [fst]. apply nth_error_lt in Hi. auto. }
    cbn [rbind]. eexists. eexists. split; [reflexivity|]. split; [rewrite !map_length, enumerate_len; auto|].
    set (mats := inc :: materials ++ [trn]). split.
    - intros q Hq. apply in_flat_map in Hq. destruct Hq as [[o f] [H1 H2]]. apply in_map_iff in H1. destruct H1 as [[i t] [H1 H3]].
      injection H1 as H1 _. apply in_enumerate in H3. cbn [fst] in H2. subst o. exists i, t. split; auto.
      unfold request_of in H2. cbn [fst snd] in H2. destruct (x_layers t); [|destruct H2]. destruct H2 as [<-|[]]. auto.
    - intros i t Hi. exists (info_of t). split.
      { rewrite map_map. cbn [snd]. apply map_nth_error with (f := fun x => info_of (snd x)) (d := (i, t)). apply nth_error_enum. auto. }
      unfold info_of. destruct (x_layers t) as [l|] eqn:El; [|auto]. cbn [ii_tmm ii_n ii_widths ii_prof].
      split; auto. split; auto. split; auto. split; auto.
      eexists. split.
      { apply in_flat_map. exists (request_of inc trn mats (i, t), info_of t). split.
        - apply in_map_iff. exists (i, t). split; auto. apply in_enumerate. auto.
        - cbn [fst]. unfold request_of. cbn [fst snd]. rewrite El. left. reflexivity. }
      cbn [q_layers q_name q_inc q_trn q_coh q_prof q_coherent fst snd].
      assert (Lm : length mats = Datatypes.S (Datatypes.S (length materials))) by (unfold mats; cbn [length]; rewrite app_length; cbn [length]; lia).
      pose proof (nth_error_lt _ _ _ Hi).
      split; auto. split; auto. split; [apply nth_error_nth'; lia|]. split; [apply nth_error_nth'; lia|]. split; auto. split; auto.
      destruct (x_coh t); split; intros; auto; discriminate.
  Qed.

  (* one material too many: no error, and the table of the last interface is for another medium than
     the one under it in the list of media *)
  Lemma tables_extra textures (materials : list M) inc trn t l : length textures = length materials -> textures <> [] ->
    last textures t = t -> x_layers t = Some l ->
    exists qs infos q, make_lookuptable_rt_structure lw textures materials inc trn = Ok (qs, infos) /\ In q qs /\
      q_name q = rt_lookup_name (x_name t) (length textures - 1) /\ q_trn q = trn /\
      nth_error (inc :: materials ++ [trn]) (length textures) = Some (last materials inc).
  Proof.
    intros Hn Hne Hl El.
    assert (Hi : nth_error textures (length textures - 1) = Some t).
    { rewrite (app_removelast_last t Hne), Hl, app_length. cbn [length].
      rewrite nth_error_app2 by lia. replace (length (removelast textures) + 1 - 1 - length (removelast textures))%nat with 0%nat by lia. auto. }
    assert (P : forall i t, (i < length textures)%nat -> exists o, plan_texture lw (length textures) materials inc trn i t = Ok o /\
      (x_layers t <> None -> i = (length textures - 1)%nat -> exists q, fst o = Some q /\ q_name q = rt_lookup_name (x_name t) i /\ q_trn q = trn)).
    { intros i t' Hlt. unfold plan_texture. destruct (x_layers t') as [l'|]; [|eexists; split; [reflexivity|]; intros []; auto].
      assert (E1 : exists a, (if Nat.ltb 0 i then py_index materials (Z.of_nat i - 1) else Ok inc) = Ok a).
      { destruct i as [|i]; [eexists; reflexivity|]. destruct (Nat.ltb_spec 0 (Datatypes.S i)); [|lia].
        replace (Z.of_nat (Datatypes.S i) - 1)%Z with (Z.of_nat i) by lia. exists (nth i materials inc). apply py_index_nat. apply nth_error_nth'. lia. }
      assert (E2 : exists a, (if Nat.ltb i (length textures - 1) then py_index materials (Z.of_nat i) else Ok trn) = Ok a /\ (i = (length textures - 1)%nat -> a = trn)).
      { destruct (Nat.ltb_spec i (length textures - 1)).
        - exists (nth i materials inc). split; [|lia]. apply py_index_nat. apply nth_error_nth'. lia.
        - exists trn. auto. }
      destruct E1 as [a ->]. destruct E2 as [b [-> Hb]]. cbn [rbind]. eexists. split; [reflexivity|].
      intros _ Ei. eexists. split; [reflexivity|]. cbn. auto. }
    unfold make_lookuptable_rt_structure.
    set (F := fun it => plan_texture lw (length textures) materials inc trn (fst it) (snd it)).
    assert (D : info_of t = info_of t) by auto.
    set (G := fun it => match F it with Ok o => o | Err _ => (None, info_of t) end).
    rewrite (rmap_all F G).
    2:{ intros [i t'] Hin. apply in_enumerate in Hin. destruct (P i t') as [o [E _]]; [apply nth_error_lt in Hin; auto|].
        unfold G, F. cbn [fst snd]. rewrite E. auto. }
    destruct (P (length textures - 1)%nat t) as [o [E H]]; [apply nth_error_lt in Hi; auto|].
    destruct H as [q [Q1 [Q2 Q3]]]; [congruence|auto|].
    cbn [rbind]. eexists. eexists. exists q. split; [reflexivity|]. split.
    { apply in_flat_map. exists o. split; [|rewrite Q1; left; auto]. apply in_map_iff. exists ((length textures - 1)%nat, t).
      split; [unfold G, F; cbn [fst snd]; rewrite E; auto|]. apply in_enumerate. auto. }
    split; auto. split; auto.
    rewrite Hn. destruct materials as [|m ms]; [destruct textures; [contradiction|discriminate]|].
    cbn [length nth_error]. rewrite nth_error_app1 by (cbn [length]; lia).
    rewrite (app_removelast_last inc (l := m :: ms)) at 1 by discriminate.
    assert (length (removelast (m :: ms)) = length ms).
    { assert (length (m :: ms) = length (removelast (m :: ms) ++ [last (m :: ms) inc])) by (rewrite <- app_removelast_last; [auto|discriminate]).
      rewrite app_length in H. cbn [length] in H. lia. }
    rewrite nth_error_app2 by lia. rewrite H, Nat.sub_diag. reflexivity.
  Qed.
End Tables.

(* ---------- results ---------- *)

Lemma assemble_ok {P} n_layers (wls : list (list (list R) * list (list P))) m :
  (forall w, In w wls -> length (fst w) = length n_layers /\ length (snd w) = length n_layers /\
     forall j, (j < length n_layers)%nat -> length (nth j (fst w) []) = nth j n_layers 0%nat /\ length (nth j (snd w) []) = m j) ->
  exists A Q, assemble n_layers wls = Ok (A, Q) /\ length A = length n_layers /\ length Q = length n_layers /\
    forall j, (j < length n_layers)%nat -> nth j A [] = map (fun w => nth j (fst w) []) wls /\
      nth j Q [] = if Nat.ltb 0 (m j) then map (fun w => nth j (snd w) []) wls else [].
Proof.
  intros H. unfold assemble.
  rewrite (rmap_all _ (fun jn => map (fun w => nth (fst jn) (fst w) []) wls)).
  2:{ intros [j k] Hj. apply in_enumerate in Hj. cbn [fst snd]. apply rmap_all. intros w Hw. destruct (H w Hw) as [H1 [H2 H3]].
      pose proof (nth_error_lt _ _ _ Hj) as Lj. destruct (H3 j Lj) as [H4 _].
      rewrite (py_index_nat _ _ (nth j (fst w) [])) by (apply nth_error_nth'; lia). cbn [rbind].
      rewrite H4, (nth_error_nth _ _ _ Hj), Nat.eqb_refl. auto. }
  cbn [rbind].
  rewrite (rmap_all _ (fun jn => if Nat.ltb 0 (m (fst jn)) then map (fun w => nth (fst jn) (snd w) []) wls else [])).
  2:{ intros [j k] Hj. apply in_enumerate in Hj. cbn [fst snd]. pose proof (nth_error_lt _ _ _ Hj) as Lj.
      rewrite (rmap_all _ (fun w => nth j (snd w) [])).
      2:{ intros w Hw. destruct (H w Hw) as [H1 [H2 H3]]. apply py_index_nat. apply nth_error_nth'. lia. }
      cbn [rbind]. f_equal.
      assert (X : forall w, In w wls -> length (nth j (snd w) []) = m j) by (intros w Hw; apply (H w Hw); auto).
      clear - X. induction wls as [|w l IH]; cbn [map filter]; [destruct (Nat.ltb _ _); auto|].
      rewrite (X w) by (left; auto). rewrite IH by (intros; apply X; right; auto). destruct (Nat.ltb 0 (m j)); auto. }
  cbn [rbind]. eexists. eexists. split; [reflexivity|]. split; [rewrite map_length, enumerate_len; auto|].
  split; [rewrite map_length, enumerate_len; auto|].
  intros j Hj. destruct (nth_error n_layers j) as [k|] eqn:E; [|apply nth_error_None in E; lia].
  split; apply nth_error_nth; rewrite (map_nth_error _ _ _ (nth_error_enum _ _ _ E)); reflexivity.
Qed.
