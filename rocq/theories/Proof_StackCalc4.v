(* rt_structure.calculate: how the rays of planar structures end, and what the totals are. *)
From Coq Require Import Reals List Bool ZArith Lia Lra.
From Verif Require Import Base Lib Model_Angles Model_Optics Model_OpticsC Model_RayIface Model_RayStack Model_Surface Model_RTStruct Model_Trace
  Model_StackRay Model_StackCalc
  Spec_Optics Spec_OpticsC Spec_RayIface Spec_RayStack Spec_Surface Spec_RTStruct Spec_Trace Spec_StackRay Spec_StackCalc
  Proof_Optics Proof_RayStack Proof_RayEnergy Proof_RTStruct Proof_RTStruct3 Proof_StackRay Proof_StackFlat Proof_StackPlanar
  Proof_StackCalc Proof_StackCalc2 Proof_StackCalc3.
Import ListNotations.
Open Scope R_scope.

Lemma ends_unique mats widths tables o w k n f n' f' : ends_at mats widths tables o w k n f -> ends_at mats widths tables o w k n' f' -> n = n' /\ f = f'.
Proof.
  assert (N : forall a fa b fb, ends_at mats widths tables o w k a fa -> ends_at mats widths tables o w k b fb -> (a < b)%nat -> False).
  { intros a fa b fb (_ & Qa & Q) (H & Qb & _) L. destruct (H (S a) ltac:(lia)) as [H1 H2]. destruct fa as [| |A|].
    - rewrite Q in H1. cbn [fst] in H1. lia.
    - rewrite Q in H1. cbn [fst] in H1. lia.
    - destruct (Qb a A ltac:(lia)) as [Qb1 _]. destruct Qb1 as [E _]; [apply Qa; auto|lia].
    - destruct Q as [_ Q]. lra. }
  intros E1 E2. assert (E : n = n').
  { destruct (lt_eq_lt_dec n n') as [[L|L]|L]; auto; exfalso; [apply (N n f n' f' E1 E2 L)|apply (N n' f' n f E2 E1 L)]. }
  subst n'. split; [reflexivity|]. destruct E1 as (_ & F1 & B1), E2 as (_ & F2 & B2).
  destruct f as [| |A|].
  3:{ destruct (F2 n A (le_n n)) as [Q _]. destruct Q as [_ Q]; [apply F1; auto|]. now symmetry. }
  all: destruct f' as [| |A'|]; auto; exfalso; try (rewrite B1 in B2; injection B2; lia);
    try (rewrite B1 in B2; destruct B2 as [B2 _]; cbn [fst] in B2; lia); try (rewrite B2 in B1; destruct B1 as [B1 _]; cbn [fst] in B1; lia);
    (destruct (F1 n A' (le_n n)) as [Q _]; destruct Q as [_ Q]; [apply F2; auto|discriminate]).
Qed.

(* a ray that left did not leave level *)
Lemma traced_angle K ws r th : stack_of K ws -> traced K ws r -> s_theta r = Some th -> th <> PI / 2.
Proof.
  intros HK (m0 & d0 & outs & fuel & G & P & E) T.
  destruct (path_end K ws m0 d0 outs HK G fuel _ E) as (k & st & Es & _ & En & _). injection Es as <-. specialize (P k).
  assert (A : s_theta r = Some (angle outs k) -> (forall A, outs k <> OAbsorbed A) -> th <> PI / 2).
  { intros Ea Na. rewrite Ea in T. injection T as <-. unfold angle. destruct (outs k) as [t|t|A]; [| |exfalso; apply (Na A); reflexivity];
      cbn [proper] in P; destruct (Z.eqb _ 1); unfold upwards, downwards in P; lra. }
  inversion En; auto; congruence.
Qed.

Lemma rsum_indexed {A} (g : A -> R) (h : nat -> R) : forall l b, (forall k r, nth_error l k = Some r -> g r = h (b + k)%nat) ->
  rsum (map g l) = rsum (map h (seq b (length l))).
Proof.
  induction l as [|a l IH]; intros b H; [reflexivity|]. cbn [map length seq rsum]. rewrite (H 0%nat a eq_refl), Nat.add_0_r. f_equal.
  apply IH. intros k r E. rewrite (H (S k) r E). f_equal. lia.
Qed.

Lemma inner_nth (F : nat -> R) n i : (i < n)%nat -> nth i (removelast (tl (map F (seq 0 (S (S n)))))) 0 = F (S i).
Proof.
  intros H. change (tl (map F (seq 0 (S (S n))))) with (map F (seq 1 (S n))). rewrite seq_S, map_app. cbn [map]. rewrite removelast_last.
  rewrite (nth_indep _ 0 (F 0%nat)) by (rewrite map_length, seq_length; exact H). rewrite map_nth. f_equal. rewrite seq_nth by exact H. reflexivity.
Qed.

Lemma rsum_zeros {A} : forall l : list A, rsum (map (fun _ => 0) l) = 0.
Proof. induction l as [|a l IH]; cbn [map rsum]; [reflexivity|]. rewrite IH. ring. Qed.

Section Flat.
  Variables (S : store) (textures : list nat) (materials : list material) (widths : list R) (inc trn : material) (surfs : list rtsurf).
  Variables (tables : list (option (Z -> R -> table_entry))) (o : rt_options) (w : rt_draws).
  Let mats := inc :: materials ++ [trn].
  Let ws := map (fun x => 10 ^ 6 * x) widths.
  Hypothesis HB : built_structure S textures materials widths inc trn surfs.
  Hypothesis HO : sound_options mats widths tables surfs o w.
  Hypothesis HF : flat_structure S textures widths mats tables o w.
  Let U k := calc_setup surfs mats widths tables o w k.
  Let films := films_on (c_pol o) tables.
  Let psi := snell (media mats o) (start_mat o) (c_theta o).

  Lemma si_loss_in k i p : planar_lost_in (media mats o) films (start_mat o) (start_dir o) (c_theta o) (dr_rnd (w_ray w k)) (u_K (U k)) i p =
    si_lost_in mats widths tables o w k i p.
  Proof.
    unfold planar_lost_in, si_lost_in. f_equal. apply map_ext. intros j.
    rewrite !(si_planar_power materials widths inc trn surfs tables o w HO k). reflexivity.
  Qed.

  (* one ray *)
  Definition reported (k : nat) (fin : fstate) (n : nat) (f : finish) : Prop :=
    traced (u_K (U k)) ws (x_st fin) /\ ends_at mats widths tables o w k n f /\
    s_theta (x_st fin) = match f with Front => Some (psi 0%Z) | Rear => Some (PI - psi (Z.of_nat (length widths) + 1)%Z) | _ => None end /\
    s_I (x_st fin) = match f with Film _ => 0 | _ => si_power mats widths tables o w k (crossed n f) end /\ s_passes (x_st fin) = crossed n f /\
    s_Aint (x_st fin) = match f with Film A => map (fun a => si_power mats widths tables o w k n * a / rsum A) A | _ => [] end /\
    (forall A, f = Film A -> (forall a, In a A -> 0 <= a) /\ 0 < rsum A /\
       s_Aidx (x_st fin) = (surface_ahead (fst (route mats tables o w k n)) (snd (route mats tables o w k n)) + 1)%Z) /\
    length (s_A (x_st fin)) = Datatypes.S (Datatypes.S (length widths)) /\
    (forall i, (i < Datatypes.S (Datatypes.S (length widths)))%nat -> nth i (s_A (x_st fin)) 0 = si_lost_in mats widths tables o w k i (crossed n f)) /\
    x_nint fin = x_checks fin /\
    (forall th, s_theta (x_st fin) = Some th -> x_dir fin = pointing th (c_phi o + PI)).

  Lemma ray_reported outer fuel k s x y fin : nth_error surfs 0 = Some s ->
    ray_from materials widths inc trn surfs tables o w outer (3 + fuel) k s x y = Some (Ok fin) -> exists n f, reported k fin n f.
  Proof.
    intros Hs T. unfold ray_from in T. fold mats in T. fold (U k) in T.
    pose proof (calc_planar S textures materials widths inc trn surfs tables o w HB HO HF k) as HP. fold mats ws films in HP. change (planar_structure (U k) ws films (start_mat o) (c_theta o)) in HP.
    pose proof (op_theta _ _ _ _ _ _ HO) as Ht. pose proof (op_high _ _ _ _ _ _ HO s Hs) as Hh. pose proof (op_wl _ _ _ _ _ _ HO) as Hw.
    assert (HG : (start_dir o = 1 /\ 0 <= start_mat o <= Z.of_nat (length ws))%Z \/ (start_dir o = -1 /\ 1 <= start_mat o <= Z.of_nat (length ws))%Z)
      by exact (flat_start S textures materials widths inc trn surfs tables o w HO HF).
    assert (GS : good_start ws (start_mat o) (start_dir o)) by (destruct HG as [[-> G]|[-> G]]; [left|right]; split; auto; lia).
    pose proof (planar_trace (U k) ws films (start_mat o) (start_dir o) (c_theta o) (c_phi o) _ x y outer fuel HP Ht Hh HG) as Q.
    destruct (single_ray_stack _ _ _ _ _) as [[s'|e]|] eqn:E; [|contradiction|congruence].
    destruct Q as (fin' & Q1 & Q2 & Q3 & Q4). rewrite T in Q1. injection Q1 as <-.
    destruct (planar_ending (u_K (U k)) ws (u_nks (U k)) films (start_mat o) (start_dir o) (c_theta o) (dr_rnd (u_draws (U k)))
      (st_stack _ _ (pl_struct _ _ _ _ _ HP)) GS outer _ E) as (st & n & Es & P1 & P2 & P3 & P4). injection Es as <-. rewrite <- Q2 in *.
    assert (Lw : length ws = length widths) by (unfold ws; apply map_length).
    assert (Tr : traced (u_K (U k)) ws (x_st fin)).
    { apply (planar_traced (U k) ws films (start_mat o) (start_dir o) (c_theta o) (c_phi o) _ x y outer fuel fin HP Ht Hh); auto.
      apply (start_up' materials widths inc trn surfs tables o w HO s Hs). }
    change (u_nks (U k)) with (media mats o) in *. change (dr_rnd (u_draws (U k))) with (dr_rnd (w_ray w k)) in *. rewrite Lw in *.
    change (k_thresh (u_K (U k))) with (c_thresh o) in P2.
    assert (P2' : forall j, (1 <= j <= n)%nat -> (1 <= fst (route mats tables o w k j) <= Z.of_nat (length widths))%Z /\ c_thresh o <= si_power mats widths tables o w k j).
    { intros j Hj. destruct (P2 j Hj) as [R1 R2]. split; [exact R1|]. rewrite <- (si_planar_power materials widths inc trn surfs tables o w HO k). exact R2. }
    assert (PL : forall f, s_passes (x_st fin) = crossed n f -> forall i, (i < Datatypes.S (Datatypes.S (length widths)))%nat -> nth i (s_A (x_st fin)) 0 = si_lost_in mats widths tables o w k i (crossed n f)).
    { intros f Ef i Hi. rewrite P4 by exact Hi. rewrite Ef. apply si_loss_in. }
    assert (DIR : forall th, s_theta (x_st fin) = Some th -> x_dir fin = pointing th (c_phi o + PI)) by (intros th Eth; apply (Q4 th Eth)).
    assert (NA : forall j A, (j < s_passes (x_st fin))%nat -> fate_of mats tables o w k j <> Stays A).
    { intros j A Hj Ef. refine (srun_passed outer (u_K (U k)) _ (sstart (u_K (U k)) (start_mat o) (start_dir o)) 0 _ E eq_refl j _ A _).
      - lia.
      - unfold planar_out. unfold fate_of, route in Ef. destruct (planar_at _ _ _ _ _ _ j) as [m d]. cbn [fst snd] in Ef. unfold films. rewrite Ef. reflexivity. }
    assert (OUT : forall m d, route mats tables o w k (Datatypes.S n) = (m, d) -> (m = 0 \/ m = Z.of_nat (length widths) + 1)%Z -> (m = 0 -> d = -1)%Z -> (m <> 0 -> d = 1)%Z ->
      forall A, fate_of mats tables o w k n <> Stays A).
    { intros m d Em H0 H1 H2 A EA. unfold fate_of, route in EA. unfold route in Em. cbn [planar_at] in Em.
      destruct (planar_at (media mats o) (films_on (c_pol o) tables) (start_mat o) (start_dir o) (c_theta o) (dr_rnd (w_ray w k)) n) as [m1 d1] eqn:E1.
      cbn [fst snd] in EA. rewrite EA in Em. injection Em as -> ->.
      destruct (Nat.eq_dec n 0) as [Zn|Zn].
      - rewrite Zn in E1. cbn [planar_at] in E1. injection E1 as <- <-. lia.
      - destruct (P2' n ltac:(lia)) as [I _]. unfold route in I. rewrite E1 in I. cbn [fst] in I. lia. }
    assert (FATES : forall f, (forall A, f <> Film A) -> (forall A, fate_of mats tables o w k n <> Stays A) -> s_passes (x_st fin) = crossed n f ->
      forall j A, (j <= n)%nat -> fate_of mats tables o w k j = Stays A <-> j = n /\ f = Film A).
    { intros f F1 F2 F3 j A Hj. split.
      - intros Ef. exfalso. destruct (Nat.eq_dec j n) as [->|Nj]; [now apply (F2 A)|]. apply (NA j A); auto. rewrite F3. destruct f; cbn [crossed]; lia.
      - intros [_ Q]. exfalso. now apply (F1 A). }
    inversion P1 as [E1 E2 E3 E4 E5|E1 E2 E3 E4 E5|m d A E1 E2 E3 E4 E5 E6 E7|E1 E2 E3 E4 E5 E6].
    - exists n, Front. rewrite (si_planar_power materials widths inc trn surfs tables o w HO k) in E3.
      assert (EB : ends_at mats widths tables o w k n Front).
      { split; [exact P2'|]. split; [|exact E1]. apply FATES; try discriminate; auto. apply (OUT 0%Z (-1)%Z); auto. lia. }
      unfold reported. cbn [crossed]. split; [exact Tr|]. split; [exact EB|]. split; [exact E2|]. split; [exact E3|]. split; [exact E4|]. split; [exact E5|].
      split; [discriminate|]. split; [exact P3|]. split; [exact (PL Front E4)|]. split; [exact Q3|exact DIR].
    - exists n, Rear. rewrite (si_planar_power materials widths inc trn surfs tables o w HO k) in E3.
      assert (EB : ends_at mats widths tables o w k n Rear).
      { split; [exact P2'|]. split; [|exact E1]. apply FATES; try discriminate; auto. apply (OUT (Z.of_nat (length widths) + 1)%Z 1%Z); auto. lia. }
      unfold reported. cbn [crossed]. split; [exact Tr|]. split; [exact EB|]. split; [exact E2|]. split; [exact E3|]. split; [exact E4|]. split; [exact E5|].
      split; [discriminate|]. split; [exact P3|]. split; [exact (PL Rear E4)|]. split; [exact Q3|exact DIR].
    - exists n, (Film A). rewrite (si_planar_power materials widths inc trn surfs tables o w HO k) in E6.
      assert (EF : fate_of mats tables o w k n = Stays A).
      { unfold fate_of, route. unfold films in E1. rewrite E1. cbn [fst snd]. exact E2. }
      assert (EB : ends_at mats widths tables o w k n (Film A)).
      { split; [exact P2'|]. split; [|exact I]. intros j A' Hj. split.
        - intros Ej. destruct (Nat.eq_dec j n) as [->|Nj]; [split; congruence|]. exfalso. apply (NA j A'); auto. rewrite E5. lia.
        - intros [-> Q]. injection Q as <-. exact EF. }
      assert (UA : (forall a, In a A -> 0 <= a) /\ 0 < rsum A).
      { unfold next_fate in E2. destruct (film_ahead films m d) as [p|ent] eqn:EA; cbn [meets_film] in E2; [destruct (Rleb _ _); discriminate|].
        assert (Ient : In (Some ent) tables).
        { unfold film_ahead, films, films_on in EA. set (i := Z.to_nat _) in EA. destruct (nth_error tables i) as [t|] eqn:Et.
          - rewrite (nth_error_nth _ _ (Bare PolU) (map_nth_error (coated (c_pol o)) _ _ Et)) in EA. destruct t as [e|]; [|discriminate].
            cbn [coated] in EA. injection EA as ->. exact (nth_error_In _ _ Et).
          - rewrite nth_overflow in EA; [discriminate|]. rewrite map_length. now apply nth_error_None. }
        destruct (Rleb _ (te_R _)) eqn:L1; [discriminate|]. destruct (Rleb _ (_ + _)) eqn:L2; [discriminate|]. injection E2 as <-.
        apply Rleb_false in L2. apply (op_usable _ _ _ _ _ _ HO ent Ient). eapply Rlt_trans; [exact L2|apply (op_rnd _ _ _ _ _ _ HO)]. }
      unfold reported. cbn [crossed]. split; [exact Tr|]. split; [exact EB|]. split; [exact E3|]. split; [exact E4|]. split; [exact E5|]. split; [exact E6|].
      split.
      { intros A' Q. injection Q as <-. split; [apply UA|]. split; [apply UA|]. rewrite E7. unfold route. unfold films in E1. rewrite E1. reflexivity. }
      split; [exact P3|]. split; [exact (PL (Film A) E5)|]. split; [exact Q3|exact DIR].
    - exists n, Bulk. rewrite (si_planar_power materials widths inc trn surfs tables o w HO k) in E3. fold mats in E3.
      change (k_thresh (u_K (U k))) with (c_thresh o) in E4.
      assert (EB : ends_at mats widths tables o w k n Bulk).
      { split; [exact P2'|]. split; [|split; [exact E1|]; rewrite <- E3; exact E4]. apply FATES; try discriminate; auto. intros A. apply NA. lia. }
      unfold reported. cbn [crossed]. split; [exact Tr|]. split; [exact EB|]. split; [exact E2|]. split; [exact E3|]. split; [exact E5|]. split; [exact E6|].
      split; [discriminate|]. split; [exact P3|]. split; [exact (PL Bulk E5)|]. split; [exact Q3|exact DIR].
  Qed.

  (* the totals *)
  Lemma flat_totals rays (e : nat -> nat * finish) : (0 < length rays)%nat ->
    (forall k fin, nth_error rays k = Some fin -> reported k fin (fst (e k)) (snd (e k))) ->
    let t := calculate_totals (calc_stack mats widths (length surfs) o) (map x_st rays) in
    let N := length rays in
    let share k := si_power mats widths tables o w k (fst (e k)) / INR N in
    t_R t = rsum (map (fun k => match snd (e k) with Front => share k | _ => 0 end) (seq 0 N)) /\
    t_T t = rsum (map (fun k => match snd (e k) with Rear => share k | _ => 0 end) (seq 0 N)) /\
    t_R0 t = rsum (map (fun k => match snd (e k) with Front => if Nat.eqb (fst (e k)) 0 then share k else 0 | _ => 0 end) (seq 0 N)) /\
    length (t_A t) = length widths /\
    (forall i, (i < length widths)%nat -> nth i (t_A t) 0 =
       rsum (map (fun k => si_lost_in mats widths tables o w k (Datatypes.S i) (crossed (fst (e k)) (snd (e k))) / INR N) (seq 0 N))) /\
    length (t_Aint t) = Datatypes.S (length widths) /\
    (forall i, (i <= length widths)%nat -> nth i (t_Aint t) 0 = rsum (map (fun k => match snd (e k) with
       | Film _ => if Z.eqb (surface_ahead (fst (route mats tables o w k (fst (e k)))) (snd (route mats tables o w k (fst (e k))))) (Z.of_nat i) then share k else 0
       | _ => 0 end) (seq 0 N))).
  Proof.
    intros HN HR. cbv zeta. cbn [calculate_totals t_R t_T t_R0 t_A t_Aint calc_stack k_widths k_surfaces]. rewrite !map_map, map_length. pose proof PI_RGT_0 as PP.
    assert (FL : forall k fin, nth_error rays k = Some fin -> refl (x_st fin) = match snd (e k) with Front => true | _ => false end /\
      trns (x_st fin) = match snd (e k) with Rear => true | _ => false end).
    { intros k fin Hk. destruct (HR k fin Hk) as (Tr & En & Th & _). unfold refl, trns. rewrite Th.
      pose proof (calc_structure S textures materials widths inc trn surfs tables o w HB HO k) as St.
      pose proof (fun th => traced_angle _ _ _ th (st_stack _ _ St) Tr) as TA. rewrite Th in TA.
      destruct (snd (e k)); auto.
      - pose proof (asin_bound (index_of (media mats o) (start_mat o) * sin (c_theta o) / index_of (media mats o) 0)) as B.
        change (asin _) with (psi 0%Z) in B. rewrite (proj2 (Rleb_true _ _)) by lra. rewrite (proj2 (Rltb_false _ _)) by lra. auto.
      - specialize (TA _ eq_refl). set (j := (Z.of_nat (length widths) + 1)%Z) in *.
        pose proof (asin_bound (index_of (media mats o) (start_mat o) * sin (c_theta o) / index_of (media mats o) j)) as B.
        change (asin _) with (psi j) in B. rewrite (proj2 (Rleb_false _ _)) by lra. rewrite (proj2 (Rltb_true _ _)) by lra. auto. }
    assert (WL : length (map (fun x => 10 ^ 6 * x) (0 :: widths ++ [0])) = Datatypes.S (Datatypes.S (length widths))).
    { rewrite map_length. cbn [length]. rewrite app_length. cbn [length]. lia. }
    rewrite WL. split; [|split; [|split; [|split; [|split; [|split]]]]].
    - apply rsum_indexed. intros k fin Hk. destruct (FL k fin Hk) as [-> _]. destruct (HR k fin Hk) as (_ & _ & _ & I & _). rewrite I.
      cbn [Nat.add]. destruct (snd (e k)); unfold pick; cbn [crossed]; [reflexivity| | |]; unfold Rdiv; ring.
    - apply rsum_indexed. intros k fin Hk. destruct (FL k fin Hk) as [_ ->]. destruct (HR k fin Hk) as (_ & _ & _ & I & _). rewrite I.
      cbn [Nat.add]. destruct (snd (e k)); unfold pick; cbn [crossed]; [|reflexivity| |]; unfold Rdiv; ring.
    - apply rsum_indexed. intros k fin Hk. destruct (FL k fin Hk) as [-> _]. destruct (HR k fin Hk) as (_ & _ & _ & I & P & _). rewrite I, P.
      cbn [Nat.add]. destruct (snd (e k)); unfold pick; cbn [crossed andb]; [|unfold Rdiv; ring ..].
      destruct (Nat.eqb _ 0); [reflexivity|unfold Rdiv; ring].
    - match goal with |- length (removelast (tl (map ?F _))) = _ => set (FF := F) end.
      change (tl (map FF (seq 0 (Datatypes.S (Datatypes.S (length widths)))))) with (map FF (seq 1 (Datatypes.S (length widths)))).
      rewrite seq_S, map_app. cbn [map]. rewrite removelast_last, map_length, seq_length. reflexivity.
    - intros i Hi. rewrite inner_nth by exact Hi. rewrite map_map. apply rsum_indexed. intros k fin Hk. destruct (HR k fin Hk) as (_ & _ & _ & _ & _ & _ & _ & _ & A & _).
      cbn [Nat.add]. rewrite A by lia. reflexivity.
    - rewrite map_length, seq_length. exact (surfs_length S textures materials widths inc trn surfs HB).
    - intros i Hi. match goal with |- nth i (map ?F _) 0 = _ => set (FF := F) end.
      rewrite (nth_indep _ 0 (FF 0%nat)) by (rewrite map_length, seq_length, (surfs_length S textures materials widths inc trn surfs HB); lia).
      rewrite map_nth, seq_nth by (rewrite (surfs_length S textures materials widths inc trn surfs HB); lia). unfold FF. rewrite map_map.
      apply rsum_indexed. intros k fin Hk. destruct (HR k fin Hk) as (_ & _ & _ & _ & _ & AI & AX & _). rewrite AI. cbn [Nat.add].
      destruct (snd (e k)) as [| |A|] eqn:Ef; unfold pick; try (cbn [rsum]; destruct (Z.eqb _ _); unfold Rdiv; ring).
      destruct (AX A eq_refl) as (A1 & A2 & ->). set (sa := surface_ahead _ _).
      assert (SUM : forall p l, rsum (map (fun a => p * a / rsum A) l) = p * rsum l / rsum A).
      { intros p l. induction l as [|a l IH]; cbn [map rsum]; [unfold Rdiv; ring|]. rewrite IH. field. lra. }
      rewrite SUM. destruct (Z.eqb sa (Z.of_nat i)) eqn:Es.
      + apply Z.eqb_eq in Es. rewrite (proj2 (Z.eqb_eq _ _)) by lia. field. split; [|lra]. apply not_0_INR. lia.
      + apply Z.eqb_neq in Es. rewrite (proj2 (Z.eqb_neq _ _)) by lia. unfold Rdiv. ring.
  Qed.
End Flat.
