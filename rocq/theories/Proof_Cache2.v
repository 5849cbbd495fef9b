(* Proofs about the results directory: C20-C23, C68. *)
From Coq Require Import List Bool Arith Ascii String Lia DecimalString DecimalNat.
From Verif Require Import Base Model_Cache Spec_Cache Proof_Cache.
Import ListNotations.
Open Scope string_scope.

(* a finished run reaches what one of its calls establishes and all of them preserve *)
Lemma run_establish (P Q : fsys -> Prop) run ow t : forall ts fs fs',
  (forall t' f ws, In t' ts -> P f -> task_writes f run ow t' = Ok ws ->
     P (fst (do_writes f ws Forever)) /\ (Q f -> Q (fst (do_writes f ws Forever)))) ->
  (forall f ws, P f -> task_writes f run ow t = Ok ws -> Q (fst (do_writes f ws Forever))) ->
  In t ts -> P fs -> run_tasks fs run ow ts Forever = (fs', Finished) -> Q fs'.
Proof.
  assert (Keep : forall ts fs fs',
    (forall t' f ws, In t' ts -> P f -> task_writes f run ow t' = Ok ws ->
       P (fst (do_writes f ws Forever)) /\ (Q f -> Q (fst (do_writes f ws Forever)))) ->
    P fs -> Q fs -> run_tasks fs run ow ts Forever = (fs', Finished) -> Q fs').
  { induction ts as [|u r IH]; intros fs fs' Hp HP HQ; cbn [run_tasks].
    - intros E; now inversion E; subst.
    - destruct (task_writes fs run ow u) as [ws|] eqn:E; [|discriminate].
      destruct (Hp u fs ws (or_introl eq_refl) HP E) as (H1 & H2).
      pose proof (do_writes_forever ws fs) as Hf.
      destruct (do_writes fs ws Forever) as [g o]. cbn [fst snd] in *. subst o.
      apply IH; auto. intros t' f w Hin. apply Hp. now right. }
  induction ts as [|u r IH]; intros fs fs' Hp Ht Hin HP; [easy|].
  cbn [run_tasks].
  destruct (task_writes fs run ow u) as [ws|] eqn:E; [|discriminate].
  destruct (Hp u fs ws (or_introl eq_refl) HP E) as (H1 & H2).
  pose proof (do_writes_forever ws fs) as Hf.
  assert (Hp' : forall t' f ws, In t' r -> P f -> task_writes f run ow t' = Ok ws ->
     P (fst (do_writes f ws Forever)) /\ (Q f -> Q (fst (do_writes f ws Forever)))).
  { intros t' f w Hin'. apply Hp. now right. }
  destruct Hin as [->|Hin].
  - pose proof (Ht fs ws HP E) as HQ.
    destruct (do_writes fs ws Forever) as [g o]. cbn [fst snd] in *. subst o.
    now apply Keep.
  - destruct (do_writes fs ws Forever) as [g o]. cbn [fst snd] in *. subst o.
    now apply IH.
Qed.

Lemma do_writes_other ws fs p b : ~ In p (map fst ws) -> fst (do_writes fs ws b) p = fs p.
Proof.
  intros H. apply do_writes_frame. intros v Hv. apply H. apply in_map_iff. now exists (p, v).
Qed.

Lemma do_writes_good ws : forall fs p,
  (exists v, In (p, v) ws /\ fst (do_writes fs ws Forever) p = Some (Good v)) \/
  (~ In p (map fst ws) /\ fst (do_writes fs ws Forever) p = fs p).
Proof.
  induction ws as [|[q w] r IH]; intros fs p; [right; now cbn|].
  cbn [do_writes map fst In]. destruct (IH (upd fs q (Good w)) p) as [(v & Hv & E)|(Hn & E)].
  - left. exists v. auto.
  - destruct (string_dec q p) as [->|N].
    + left. exists w. split; [now left|]. now rewrite E, upd_same.
    + right. split; [now intros [?|?]|]. now rewrite E, upd_other.
Qed.

(* ---------- C20 ---------- *)

Lemma C20_last : forall fs run SC i name m q s fs',
  nth_error SC i = Some (Iface name m q) ->
  (forall j m' q', nth_error SC j = Some (Iface name m' q') -> j = i) ->
  (if both_sides m then needed SC i s else s = Front) ->
  no_clash SC name s ->
  process_structure fs run true SC Forever = (fs', Finished) ->
  forall cs, (forall c, In c cs -> not_named (c_SC c) name /\ no_clash (c_SC c) name s) ->
  exists lk, load_mats (history fs' cs) name s (q && can_profile m) =
    Ok {| m_RT := ((run, i), lk); m_A := ((run, i), lk);
          m_prof := if q && can_profile m then Some ((run, i), lk) else None |}.
Proof.
  intros fs run SC i name m q s fs' Hn Hu Hs Hc E.
  set (p := q && can_profile m).
  assert (Main : exists lk, forall k, (k = KProf -> p = true) ->
                 fs' (mat_file name s k) = Some (Good ((run, i), lk))).
  { set (Q := fun f : fsys => exists lk, forall k, (k = KProf -> p = true) ->
                 f (mat_file name s k) = Some (Good ((run, i), lk))).
    assert (W : forall f lk ws, task_writes f run true (TMat i name s p lk) = Ok ws ->
                Q (fst (do_writes f ws Forever))).
    { intros f lk ws H. apply task_ws in H as [(_ & H & _)|(_ & src & ->)]; [discriminate|].
      pose proof (ws_states name s p ((run, i), src) f Forever _ eq_refl) as S.
      cbn zeta in S. destruct S as [S|[S|[S|[S|[S|[S|S]]]]]]; try (exfalso; tauto).
      destruct S as (S1 & S2 & S3). exists src. intros [] Hk; [exact S1|exact S2|].
      rewrite (Hk eq_refl) in S3 |- *. exact S3. }
    apply (run_establish (fun _ => True) Q run true (TMat i name s p (uses_lookup m))
             (tasks SC) fs fs'); auto.
    - intros t f ws Hin _ Hw. split; [exact I|]. intros (lk & HQ).
      assert (C : (exists lk', t = TMat i name s p lk') \/
                  forall k, ~ In (mat_file name s k) (task_paths t)).
      { assert (T := fun k => task_frame SC name s t k Hc Hin).
        destruct (T KRT) as [(j & m' & q' & -> & Hj)|F1].
        { left. pose proof (Hu _ _ _ Hj) as ->. rewrite Hn in Hj. inversion Hj; subst. eauto. }
        destruct (T KA) as [(j & m' & q' & -> & Hj)|F2].
        { left. pose proof (Hu _ _ _ Hj) as ->. rewrite Hn in Hj. inversion Hj; subst. eauto. }
        destruct (T KProf) as [(j & m' & q' & -> & Hj)|F3].
        { left. pose proof (Hu _ _ _ Hj) as ->. rewrite Hn in Hj. inversion Hj; subst. eauto. }
        right. intros []; assumption. }
      destruct C as [(lk' & ->)|C]; [now apply W in Hw|].
      exists lk. intros k Hk. rewrite do_writes_frame; [auto|].
      intros v Hv. apply (C k). eapply task_writes_paths; eauto.
    - intros f ws _ Hw. eapply W; eauto.
    - apply in_tasks. right. apply in_mat_tasks. exists i, name, m, q, s. auto. }
  destruct Main as (lk & Main). intros cs Hcs. exists lk.
  assert (Fr : forall cs fs, (forall c, In c cs -> not_named (c_SC c) name /\ no_clash (c_SC c) name s) ->
               forall k, history fs cs (mat_file name s k) = fs (mat_file name s k)).
  { clear. induction cs as [|c cs IH]; intros fs H k; [reflexivity|].
    cbn [history fold_left]. unfold history in IH.
    rewrite IH by (intros c' Hc'; apply H; now right).
    destruct (H c (or_introl eq_refl)) as (Hn & Hc).
    unfold do_call. apply run_tasks_frame. intros t Hin.
    destruct (task_frame (c_SC c) name s t k Hc Hin) as [(i & m & q & _ & Hj)|F]; [|exact F].
    exfalso. apply (Hn m q). now apply nth_error_In with i. }
  apply load_mats_intro.
  - rewrite Fr by exact Hcs. apply Main. discriminate.
  - rewrite Fr by exact Hcs. apply Main. discriminate.
  - intros Hp. rewrite Fr by exact Hcs. apply Main. auto.
Qed.

Lemma load_get fs name s (p q : bool) m :
  (q = true -> p = true) -> load_mats fs name s p = Ok m ->
  exists m', get_matrices_or_paths fs name s q false = Ok (Some m').
Proof.
  intros Hq H. apply load_mats_ok in H as (H1 & H2 & H3).
  unfold get_matrices_or_paths, isfile, load. rewrite H1, H2. cbn [andb negb rbind].
  destruct q; [|eauto]. rewrite (Hq eq_refl) in H3. destruct H3 as (w & _ & H3). rewrite H3.
  cbn [rbind]. eauto.
Qed.

Lemma C20_kept : forall name s p m cs fs,
  load_mats fs name s p = Ok m ->
  (forall c, In c cs -> c_overwrite c = false /\ no_clash (c_SC c) name s /\
     forall m' q, In (Iface name m' q) (c_SC c) -> q && can_profile m' = true -> p = true) ->
  load_mats (history fs cs) name s p = Ok m.
Proof.
  induction cs as [|c cs IH]; intros fs H Hc; [exact H|].
  cbn [history fold_left]. unfold history in IH.
  apply IH; [|intros c' Hin; apply Hc; now right].
  destruct (Hc c (or_introl eq_refl)) as (Ho & Hcl & Hp).
  unfold do_call, process_structure. rewrite Ho.
  apply (run_tasks_inv (fun f => load_mats f name s p = Ok m)); [|exact H].
  intros t f ws b Hin Hf Hw.
  assert (C : forall i m' q, t = TMat i name s (q && can_profile m') (uses_lookup m') ->
              nth_error (c_SC c) i = Some (Iface name m' q) -> ws = []).
  { intros i m' q -> Hj. destruct (load_get f name s p (q && can_profile m') m) as (mm & G); auto.
    - apply (Hp m' q). now apply nth_error_In with i.
    - cbn [task_writes] in Hw. rewrite G in Hw. cbn [rbind] in Hw. now inversion Hw. }
  destruct (task_frame (c_SC c) name s t KRT Hcl Hin) as [(i & m' & q & Et & Hj)|F1];
    [rewrite (C i m' q Et Hj); exact Hf|].
  destruct (task_frame (c_SC c) name s t KA Hcl Hin) as [(i & m' & q & Et & Hj)|F2];
    [rewrite (C i m' q Et Hj); exact Hf|].
  destruct (task_frame (c_SC c) name s t KProf Hcl Hin) as [(i & m' & q & Et & Hj)|F3];
    [rewrite (C i m' q Et Hj); exact Hf|].
  assert (S : forall k, fst (do_writes f ws b) (mat_file name s k) = f (mat_file name s k)).
  { intros k. apply do_writes_frame. intros v Hv.
    destruct k; [apply F1|apply F2|apply F3]; eapply task_writes_paths; eauto. }
  revert Hf. unfold load_mats, load. now rewrite !S.
Qed.

(* ---------- C21 ---------- *)

Definition good_at (f : fsys) (p : string) : Prop := exists v, f p = Some (Good v).

Lemma good_writes ws f p : good_at f p -> good_at (fst (do_writes f ws Forever)) p.
Proof.
  intros (v & H). destruct (do_writes_good ws f p) as [(w & _ & E)|(_ & E)].
  - now exists w.
  - exists v. congruence.
Qed.

Lemma computed_loads : forall fs run ow SC i name m q s fs',
  nth_error SC i = Some (Iface name m q) ->
  (if both_sides m then needed SC i s else s = Front) ->
  process_structure fs run ow SC Forever = (fs', Finished) ->
  exists mm, load_mats fs' name s (q && can_profile m) = Ok mm.
Proof.
  intros fs run ow SC i name m q s fs' Hn Hs E. set (p := q && can_profile m).
  assert (G : good_at fs' (mat_file name s KRT) /\ good_at fs' (mat_file name s KA) /\
              (p = true -> good_at fs' (mat_file name s KProf))).
  { set (Q := fun f => good_at f (mat_file name s KRT) /\ good_at f (mat_file name s KA) /\
              (p = true -> good_at f (mat_file name s KProf))).
    apply (run_establish (fun _ => True) Q run ow (TMat i name s p (uses_lookup m))
             (tasks SC) fs fs'); auto.
    - intros t f ws Hin _ Hw. split; [exact I|]. intros (A & B & C).
      split; [now apply good_writes|]. split; [now apply good_writes|].
      intros Hp. apply good_writes. auto.
    - intros f ws _ Hw. apply task_ws in Hw as [(-> & _ & mm & L)|(_ & src & ->)].
      + apply load_mats_ok in L as (L1 & L2 & L3). cbn [do_writes fst].
        split; [eexists; eauto|]. split; [eexists; eauto|].
        intros Hp. rewrite Hp in L3. destruct L3 as (w & _ & L3). now exists w.
      + pose proof (ws_states name s p ((run, i), src) f Forever _ eq_refl) as S.
        cbn zeta in S. destruct S as [S|[S|[S|[S|[S|[S|S]]]]]]; try (exfalso; tauto).
        destruct S as (S1 & S2 & S3).
        split; [eexists; exact S1|]. split; [eexists; exact S2|].
        intros Hp. rewrite Hp in S3 |- *. eexists; exact S3.
    - apply in_tasks. right. apply in_mat_tasks. exists i, name, m, q, s. auto. }
  destruct G as ((a & G1) & (b & G2) & G3).
  destruct p eqn:Ep.
  - destruct (G3 eq_refl) as (c & G4). eexists. apply load_mats_intro with (c := c); eauto.
  - eexists. apply load_mats_intro with (c := a); eauto. discriminate.
Qed.

Lemma rmap_all_ok {A B} (f : A -> res B) l :
  (forall x, In x l -> exists y, f x = Ok y) -> exists ys, rmap f l = Ok ys /\ List.length ys = List.length l.
Proof.
  induction l as [|x l IH]; intros H; [now exists []|].
  destruct (H x (or_introl eq_refl)) as (y & E).
  destruct IH as (ys & E' & L); [intros z Hz; apply H; now right|].
  exists (y :: ys). cbn [rmap]. rewrite E. cbn [rbind]. rewrite E'. cbn. now rewrite L.
Qed.

Lemma layered_ind2 : forall (P : list element -> Prop),
  (forall n m q, P [Iface n m q]) ->
  (forall n m q r, layered r -> P r -> P (Iface n m q :: Bulk :: r)) ->
  forall SC, layered SC -> P SC.
Proof.
  intros P H1 H2.
  assert (G : forall k SC, (List.length SC <= k)%nat -> layered SC -> P SC).
  { induction k; intros SC Hk HL.
    - destruct SC; [easy|cbn in Hk; lia].
    - destruct SC as [|[n m q|] r]; try easy. destruct r as [|[? ? ?|] r]; [apply H1|destruct HL|].
      apply H2; [exact HL|]. apply IHk; [cbn in Hk; lia|exact HL]. }
  intros SC. now apply G with (List.length SC).
Qed.

Lemma layered_shape SC : layered SC ->
  List.length SC = (2 * n_bulks SC + 1)%nat /\
  forall i, (i <= n_bulks SC)%nat -> exists n m q,
    nth_error SC (2 * i) = Some (Iface n m q) /\ nth_error (interfaces SC) i = Some (n, q).
Proof.
  intros H. induction H using layered_ind2.
  - split; [reflexivity|]. intros i Hi. cbn in Hi. assert (i = 0)%nat as -> by lia.
    now exists n, m, q.
  - destruct IHlayered as (L & G).
    assert (Nb : n_bulks (Iface n m q :: Bulk :: r) = S (n_bulks r)) by reflexivity.
    split; [cbn [List.length]; rewrite L, Nb; lia|].
    intros i Hi. rewrite Nb in Hi. destruct i as [|i].
    + now exists n, m, q.
    + destruct (G i) as (n' & m' & q' & A & B); [lia|]. exists n', m', q'.
      replace (2 * S i)%nat with (S (S (2 * i))) by lia. now split.
Qed.

Lemma C21_main : forall fs run ow SC fs',
  layered SC ->
  (forall i n m q, nth_error SC i = Some (Iface n m q) ->
     ((S i < List.length SC)%nat -> m <> Mirror /\ m <> Lambertian) /\
     (q = true -> can_profile m = true)) ->
  process_structure fs run ow SC Forever = (fs', Finished) ->
  exists F R, load_redistribution_matrices fs' SC Front = Ok F /\
              load_redistribution_matrices fs' SC Rear = Ok R /\
              List.length F = List.length (interfaces SC) /\
              S (List.length R) = List.length (interfaces SC).
Proof.
  intros fs run ow SC fs' HL HM E. destruct (layered_shape SC HL) as (L & G).
  assert (LI : List.length (interfaces SC) = S (n_bulks SC)).
  { clear - HL. induction HL using layered_ind2; [reflexivity|].
    cbn [interfaces flat_map app List.length n_bulks filter] in *. unfold interfaces, n_bulks in IHHL.
    now rewrite IHHL. }
  assert (One : forall i s, (i <= n_bulks SC)%nat -> (s = Rear -> (i < n_bulks SC)%nat) ->
    exists y, (match nth_error (interfaces SC) i with
               | Some (n, p) => load_mats fs' n s p | None => Err IndexError end) = Ok y).
  { intros i s Hi Hs. destruct (G i Hi) as (n & m & q & A & B). rewrite B.
    destruct (HM _ _ _ _ A) as (H1 & H2).
    assert (Hq : q && can_profile m = q).
    { destruct q; [|reflexivity]. now rewrite H2. }
    rewrite <- Hq. apply (computed_loads fs run ow SC (2 * i)); auto.
    destruct s.
    - destruct (both_sides m); [now left|reflexivity].
    - specialize (Hs eq_refl). assert (S (2 * i) < List.length SC)%nat by lia.
      destruct (H1 H) as (N1 & N2). destruct m; try congruence; now right. }
  unfold load_redistribution_matrices.
  destruct (rmap_all_ok (fun i => match nth_error (interfaces SC) i with
               | Some (n, p) => load_mats fs' n Front p | None => Err IndexError end)
               (seq 0 (n_bulks SC + 1))) as (F & EF & LF).
  { intros i Hi. apply in_seq in Hi. apply One; [lia|discriminate]. }
  destruct (rmap_all_ok (fun i => match nth_error (interfaces SC) i with
               | Some (n, p) => load_mats fs' n Rear p | None => Err IndexError end)
               (seq 0 (n_bulks SC + 1 - 1))) as (R & ER & LR).
  { intros i Hi. apply in_seq in Hi. apply One; lia. }
  exists F, R. split; [exact EF|]. split; [exact ER|].
  rewrite LF, LR, !seq_length, LI. lia.
Qed.

(* ---------- C22 ---------- *)

Definition fresh (run : nat) (f : fsys) (p : string) : Prop :=
  exists v, f p = Some (Good v) /\ prov_of_run run v.

Lemma fresh_writes run ws f p :
  (forall q v, In (q, v) ws -> prov_of_run run v) -> fresh run f p ->
  fresh run (fst (do_writes f ws Forever)) p.
Proof.
  intros H (v & E & Hv). destruct (do_writes_good ws f p) as [(w & Hw & E')|(_ & E')].
  - exists w. split; [exact E'|]. eauto.
  - exists v. rewrite E'. auto.
Qed.

(* provenance of what one call writes *)
Lemma task_writes_fresh run ow f t ws :
  (forall i n s p, t = TMat i n s p true -> fresh run f (lookup_file n)) ->
  task_writes f run ow t = Ok ws -> forall q v, In (q, v) ws -> prov_of_run run v.
Proof.
  intros Hl Hw q v Hin. pose proof (task_writes_cases _ _ _ _ _ Hw) as [->|(w & -> & Ew)]; [easy|].
  apply in_map_iff in Hin as (x & E & Hx). inversion E; subst. clear E.
  split; [now rewrite Ew|]. intros o Ho.
  destruct t as [i n|i n s p lk]; cbn [task_writes] in Hw.
  - destruct (isfile f (lookup_file n) && negb ow).
    + destruct (load f (lookup_file n)); cbn [rbind] in Hw; discriminate.
    + inversion Hw; subst. discriminate.
  - destruct (get_matrices_or_paths f n s p ow) as [[mm|]|]; cbn [rbind] in Hw; try discriminate.
    destruct lk.
    + destruct (Hl i n s p eq_refl) as (u & Eu & Hu). unfold load in Hw. rewrite Eu in Hw.
      cbn [rbind] in Hw. cbn [task_paths app map] in Hw. inversion Hw; subst.
      cbn [snd] in Ho. inversion Ho; subst. exact (proj1 Hu).
    + cbn [rbind task_paths app map] in Hw. inversion Hw; subst. discriminate.
Qed.

Lemma C22_main : forall fs run ow SC i name m q s fs' mm,
  ow = true \/ (forall p, fs p = None) ->
  nth_error SC i = Some (Iface name m q) ->
  (if both_sides m then needed SC i s else s = Front) ->
  process_structure fs run ow SC Forever = (fs', Finished) ->
  load_mats fs' name s (q && can_profile m) = Ok mm ->
  from_run run mm.
Proof.
  intros fs run ow SC i name m q s fs' mm Hcase Hn Hs E L. set (p := q && can_profile m) in *.
  assert (G : fresh run fs' (mat_file name s KRT) /\ fresh run fs' (mat_file name s KA) /\
              (p = true -> fresh run fs' (mat_file name s KProf))).
  { destruct Hcase as [->|Hempty].
    - unfold process_structure, tasks in E.
      (* all lookup tables are new after the first loop *)
      assert (R : exists f1, run_tasks fs run true (lookup_tasks SC) Forever = (f1, Finished)).
      { assert (A : forall ts f, (forall t, In t ts -> exists i n, t = TLookup i n) ->
                    exists f1, run_tasks f run true ts Forever = (f1, Finished)).
        { induction ts as [|t r IH]; intros f Ht; [now exists f|].
          destruct (Ht t (or_introl eq_refl)) as (j & n & ->).
          cbn [run_tasks task_writes]. rewrite andb_false_r. cbn [do_writes].
          apply IH. intros t' H'. apply Ht. now right. }
        apply A. intros t Ht. apply in_lookup_tasks in Ht as (j & n & w & -> & _). eauto. }
      destruct R as (f1 & R). rewrite (run_tasks_app _ _ _ _ _ _ R) in E.
      set (P := fun f => forall j n w, nth_error SC j = Some (Iface n MRT_TMM w) ->
                         fresh run f (lookup_file n)).
      assert (HP : P f1).
      { intros j n w Hj.
        apply (run_establish (fun _ => True) (fun f => fresh run f (lookup_file n)) run true
                 (TLookup j n) (lookup_tasks SC) fs f1); auto.
        - intros t f ws Hin _ Hw. split; [exact I|]. apply fresh_writes.
          eapply task_writes_fresh; [|exact Hw]. intros i0 n0 s0 p0 ->.
          apply in_lookup_tasks in Hin as (? & ? & ? & ? & _). discriminate.
        - intros f ws _ Hw. cbn [task_writes] in Hw. rewrite andb_false_r in Hw. inversion Hw.
          cbn [do_writes fst]. exists ((run, j), None). rewrite upd_same.
          split; [reflexivity|]. split; [reflexivity|discriminate].
        - apply in_lookup_tasks. eauto. }
      set (Q := fun f => fresh run f (mat_file name s KRT) /\ fresh run f (mat_file name s KA) /\
              (p = true -> fresh run f (mat_file name s KProf))).
      assert (Fr : forall t f ws, In t (mat_tasks SC) -> P f -> task_writes f run true t = Ok ws ->
                   forall x v, In (x, v) ws -> prov_of_run run v).
      { intros t f ws Hin Pf Hw. eapply task_writes_fresh; [|exact Hw]. intros i0 n0 s0 p0 ->.
        apply in_mat_tasks in Hin as (j & n & m' & w & s' & Et & Hj & _). inversion Et; subst.
        destruct m'; try discriminate. eapply Pf; eauto. }
      apply (run_establish P Q run true (TMat i name s p (uses_lookup m)) (mat_tasks SC) f1 fs'); auto.
      + intros t f ws Hin Pf Hw. pose proof (Fr t f ws Hin Pf Hw) as Fw. split.
        * intros j n w Hj. apply fresh_writes; [exact Fw|]. eapply Pf; eauto.
        * intros (A & B & C). split; [now apply fresh_writes|]. split; [now apply fresh_writes|].
          intros Hp. apply fresh_writes; auto.
      + assert (Hin : In (TMat i name s p (uses_lookup m)) (mat_tasks SC)).
        { apply in_mat_tasks. exists i, name, m, q, s. auto. }
        intros f ws Pf Hw. pose proof (Fr _ f ws Hin Pf Hw) as Fw.
        apply task_ws in Hw as [(_ & Hw & _)|(_ & src & ->)]; [discriminate|].
        pose proof (ws_states name s p ((run, i), src) f Forever _ eq_refl) as S.
        cbn zeta in S. destruct S as [S|[S|[S|[S|[S|[S|S]]]]]]; try (exfalso; tauto).
        destruct S as (S1 & S2 & S3).
        assert (V : prov_of_run run ((run, i), src)) by (apply (Fw (mat_file name s KRT)); now left).
        split; [eexists; split; [exact S1|exact V]|]. split; [eexists; split; [exact S2|exact V]|].
        intros Hp. rewrite Hp in S3 |- *. eexists; split; [exact S3|exact V].
      + apply in_mat_tasks. exists i, name, m, q, s. auto.
    - assert (All : forall x, fs' x = None \/ fresh run fs' x).
      { replace fs' with (fst (process_structure fs run ow SC Forever)) by now rewrite E.
        apply (run_tasks_inv_forever (fun f => forall x, f x = None \/ fresh run f x));
          [|intros x; now left].
        intros t f ws _ Hf Hw x.
        assert (Fw : forall y v, In (y, v) ws -> prov_of_run run v).
        { destruct t as [j n|j n s' p' lk].
          - eapply task_writes_fresh; [|exact Hw]. discriminate.
          - destruct (Hf (lookup_file n)) as [N|F].
            + destruct lk.
              * cbn [task_writes] in Hw.
                destruct (get_matrices_or_paths f n s' p' ow) as [[z|]|]; cbn [rbind] in Hw;
                  try discriminate.
                { inversion Hw. easy. }
                unfold load in Hw. rewrite N in Hw. discriminate.
              * eapply task_writes_fresh; [|exact Hw]. discriminate.
            + eapply task_writes_fresh; [|exact Hw]. intros i0 n0 s0 p0 E0. inversion E0; now subst. }
        destruct (do_writes_good ws f x) as [(w & Hw' & E')|(_ & E')].
        - right. exists w. split; [exact E'|]. eauto.
        - destruct (Hf x) as [N|F]; [left; congruence|right; now apply fresh_writes]. }
      apply load_mats_ok in L as (L1 & L2 & L3).
      assert (K : forall x v, fs' x = Some (Good v) -> fresh run fs' x).
      { intros x v Hx. destruct (All x) as [N|F]; [congruence|exact F]. }
      split; [eapply K; eauto|]. split; [eapply K; eauto|].
      intros Hp. rewrite Hp in L3. destruct L3 as (w & _ & L3). eapply K; eauto. }
  apply load_mats_ok in L as (L1 & L2 & L3).
  destruct G as ((a & A1 & A2) & (b & B1 & B2) & G3).
  rewrite L1 in A1. rewrite L2 in B1. inversion A1; subst a. inversion B1; subst b.
  split; [exact A2|]. split; [exact B2|]. intros w Hw.
  destruct p; [|congruence]. destruct L3 as (w' & Ew & L3).
  destruct (G3 eq_refl) as (c & C1 & C2). rewrite L3 in C1. inversion C1; subst c.
  rewrite Hw in Ew. inversion Ew. now subst.
Qed.

(* ---------- C23 ---------- *)

Lemma C23_main : forall (V : Type) (options : string -> option V),
  get_wavelength options "wavelength" =
    (match options "wavelengths" with Some w => Some w | None => options "wavelength" end) /\
  (forall k, k <> "wavelength" -> get_wavelength options k = options k) /\
  (forall k, get_wavelength (get_wavelength options) k = get_wavelength options k).
Proof.
  intros V o.
  assert (A : forall o : string -> option V, get_wavelength o "wavelength" =
    (match o "wavelengths" with Some w => Some w | None => o "wavelength" end)).
  { intros f. unfold get_wavelength. now destruct (f "wavelengths"). }
  assert (B : forall (o : string -> option V) k, k <> "wavelength" -> get_wavelength o k = o k).
  { intros f k Hk. unfold get_wavelength. destruct (f "wavelengths"); [|reflexivity].
    apply not_eq_sym in Hk. apply String.eqb_neq in Hk. now rewrite Hk. }
  split; [apply A|]. split; [apply B|].
  intros k. destruct (string_dec k "wavelength") as [->|N].
  - rewrite !A. rewrite (B o "wavelengths") by discriminate. now destruct (o "wavelengths").
  - now apply B.
Qed.

(* ---------- C68 ---------- *)

Definition noU (l : list ascii) : Prop := ~ In "_"%char l.

Lemma digits_noU d : noU (la (NilEmpty.string_of_uint d)).
Proof.
  unfold noU. induction d; cbn; try tauto; intros [H|H]; try discriminate; auto.
Qed.

Lemma split_unique (x : ascii) u v a b :
  ~ In x u -> ~ In x v -> (u ++ x :: a)%list = (v ++ x :: b)%list -> u = v /\ a = b.
Proof.
  revert v. induction u as [|c u IH]; intros v Hu Hv E; destruct v as [|d v]; cbn in E.
  - inversion E. auto.
  - inversion E; subst. exfalso. apply Hv. now left.
  - inversion E; subst. exfalso. apply Hu. now left.
  - inversion E; subst. destruct (IH v) as (-> & ->); auto.
    + intros H. apply Hu. now right.
    + intros H. apply Hv. now right.
Qed.

Lemma rt_lookup_name_inj n i n' i' :
  rt_lookup_name n i = rt_lookup_name n' i' -> n = n' /\ i = i'.
Proof.
  unfold rt_lookup_name. intros H. apply app_inj_suffix in H. rewrite !la_app, !rev_app_distr in H.
  cbn [la rev app] in H. rewrite <- !app_assoc in H. cbn [app] in H.
  apply split_unique in H as (H1 & H2).
  - split.
    + injection H2 as H2. now apply rev_la_inj.
    + apply rev_la_inj in H1. apply (f_equal NilEmpty.uint_of_string) in H1.
      rewrite !NilEmpty.usu in H1. injection H1 as H1.
      apply (f_equal Nat.of_uint) in H1. now rewrite !DecimalNat.Unsigned.of_to in H1.
  - intros H'. apply in_rev in H'. now apply digits_noU in H'.
  - intros H'. apply in_rev in H'. now apply digits_noU in H'.
Qed.

Lemma in_rt_tasks tx t : In t (rt_lookup_tasks tx) <->
  exists i n, t = TLookup i (rt_lookup_name n i) /\ nth_error tx i = Some (n, true).
Proof.
  unfold rt_lookup_tasks. rewrite in_flat_map. split.
  - intros ([i [n l]] & Hin & Ht). apply in_enumerate in Hin. cbn [fst snd] in Ht.
    destruct l; [|easy]. destruct Ht as [<-|[]]. eauto.
  - intros (i & n & -> & H). exists (i, (n, true)).
    split; [now apply in_enumerate|]. now left.
Qed.

Lemma rmap_nth {A B} (f : A -> res B) l ys :
  rmap f l = Ok ys -> List.length ys = List.length l /\
  forall i x, nth_error l i = Some x -> exists y, f x = Ok y /\ nth_error ys i = Some y.
Proof.
  revert ys. induction l as [|a l IH]; intros ys; cbn [rmap].
  - intros E; inversion E. split; [reflexivity|]. intros [|i] x; discriminate.
  - destruct (f a) as [y|] eqn:Ea; cbn [rbind]; [|discriminate].
    destruct (rmap f l) as [zs|] eqn:El; cbn [rbind]; [|discriminate].
    intros E; inversion E; subst. destruct (IH zs eq_refl) as (L & G).
    split; [cbn; now rewrite L|]. intros [|i] x Hx; cbn in Hx |- *.
    + inversion Hx; subst. eauto.
    + auto.
Qed.

Lemma enumerate_nth {A} (l : list A) i x :
  nth_error l i = Some x -> nth_error (enumerate l) i = Some (i, x).
Proof.
  unfold enumerate.
  assert (G : forall (l : list A) k i, nth_error l i = Some x ->
              nth_error (combine (seq k (List.length l)) l) i = Some ((k + i)%nat, x)).
  { clear. induction l as [|a l IH]; intros k [|i]; cbn; try discriminate.
    - intros E; inversion E. now rewrite Nat.add_0_r.
    - intros E. rewrite (IH (S k)) by exact E. f_equal. f_equal. lia. }
  intros H. now rewrite (G _ 0%nat).
Qed.

Lemma C68_main : forall fs run ow tx,
  no_torn fs ->
  ow = true \/ (forall i n, nth_error tx i = Some (n, true) ->
                 fs (lookup_file (rt_lookup_name n i)) = None) ->
  exists fs' tabs,
    make_lookuptable_rt_structure fs run ow tx Forever = (fs', Finished) /\
    make_tmm_args fs' tx = Ok tabs /\ List.length tabs = List.length tx /\
    forall i n l, nth_error tx i = Some (n, l) ->
      nth_error tabs i = Some (if l : bool then Some ((run, i), None) else None).
Proof.
  intros fs run ow tx HT Hcase. unfold make_lookuptable_rt_structure.
  destruct (lookup_phase run ow (rt_lookup_tasks tx) fs HT) as (fs' & E & _ & _ & _).
  { intros t Ht. apply in_rt_tasks in Ht as (i & n & -> & _). eauto. }
  assert (G : forall i n, nth_error tx i = Some (n, true) ->
              fs' (lookup_file (rt_lookup_name n i)) = Some (Good ((run, i), None))).
  { intros i n Hi. set (x := lookup_file (rt_lookup_name n i)).
    set (V := Some (Good ((run, i), None) : content)).
    set (P := fun f : fsys => ow = true \/ f x = None \/ f x = V).
    assert (W : forall t f ws, In t (rt_lookup_tasks tx) -> task_writes f run ow t = Ok ws ->
                (ws = [] \/ fst (do_writes f ws Forever) x = V \/
                 fst (do_writes f ws Forever) x = f x)).
    { intros t f ws Hin Hw. apply in_rt_tasks in Hin as (j & n' & -> & Hj).
      cbn [task_writes] in Hw.
      destruct (isfile f (lookup_file (rt_lookup_name n' j)) && negb ow).
      - destruct (load f (lookup_file (rt_lookup_name n' j))); cbn [rbind] in Hw; inversion Hw. now left.
      - inversion Hw. cbn [do_writes fst]. right.
        destruct (string_dec (lookup_file (rt_lookup_name n' j)) x) as [Eq|N].
        + left. pose proof Eq as Eq'. apply lookup_file_inj, rt_lookup_name_inj in Eq' as (_ & ->).
          rewrite <- Eq, upd_same. reflexivity.
        + right. now apply upd_other. }
    apply (run_establish P (fun f => f x = V) run ow (TLookup i (rt_lookup_name n i))
             (rt_lookup_tasks tx) fs fs'); auto.
    - intros t f ws Hin HP Hw. destruct (W t f ws Hin Hw) as [->|[H|H]].
      + cbn [do_writes fst]. auto.
      + unfold P. rewrite H. auto.
      + unfold P. rewrite H. auto.
    - intros f ws HP Hw. cbn [task_writes] in Hw. fold x in Hw. destruct HP as [->|[N|V0]].
      + rewrite andb_false_r in Hw. inversion Hw. cbn [do_writes fst]. apply upd_same.
      + unfold isfile in Hw. rewrite N in Hw. cbn [andb] in Hw. inversion Hw. cbn [do_writes fst].
        apply upd_same.
      + unfold isfile, load in Hw. rewrite V0 in Hw. destruct ow; cbn [andb negb rbind] in Hw;
          inversion Hw; cbn [do_writes fst]; [apply upd_same|exact V0].
    - apply in_rt_tasks. eauto.
    - destruct Hcase as [H|H]; [now left|]. right. left. now apply H. }
  destruct (rmap_all_ok (fun it : nat * rt_surface => if snd (snd it)
                  then rbind (load fs' (lookup_file (rt_lookup_name (fst (snd it)) (fst it))))
                             (fun v => Ok (Some v))
                  else Ok None) (enumerate tx)) as (tabs & Et & Lt).
  { intros [i [n l]] Hin. apply in_enumerate in Hin. cbn [fst snd]. destruct l; [|eauto].
    unfold load. rewrite (G i n Hin). cbn [rbind]. eauto. }
  exists fs', tabs. split; [exact E|]. split; [exact Et|].
  split.
  { rewrite Lt. unfold enumerate. rewrite combine_length, seq_length. lia. }
  intros i n l Hi. apply rmap_nth in Et as (_ & Nt).
  destruct (Nt i (i, (n, l)) (enumerate_nth _ _ _ Hi)) as (y & Ey & Hy). cbn [fst snd] in Ey.
  rewrite Hy. destruct l.
  - unfold load in Ey. rewrite (G i n Hi) in Ey. cbn [rbind] in Ey. now inversion Ey.
  - now inversion Ey.
Qed.

(* ---------- C75: overwriting always recovers ---------- *)

Lemma overwrite_finishes fs run SC :
  exists fs', process_structure fs run true SC Forever = (fs', Finished).
Proof.
  unfold process_structure, tasks.
  assert (A : forall ts f, (forall t, In t ts -> exists i n, t = TLookup i n) ->
     exists f1, run_tasks f run true ts Forever = (f1, Finished) /\
       (forall x, good_at f x -> good_at f1 x) /\
       forall i n, In (TLookup i n) ts -> good_at f1 (lookup_file n)).
  { induction ts as [|t r IH]; intros f Ht; [exists f; cbn; split; [reflexivity|split; [auto|intros ? ? []]]|].
    destruct (Ht t (or_introl eq_refl)) as (j & n & ->).
    cbn [run_tasks task_writes]. rewrite andb_false_r. cbn [do_writes].
    destruct (IH (upd f (lookup_file n) (Good ((run, j), None)))) as (f1 & E & M & L).
    { intros t' H'. apply Ht. now right. }
    assert (U : forall x, x = lookup_file n \/ good_at f x ->
                good_at (upd f (lookup_file n) (Good ((run, j), None))) x).
    { intros x Hx. unfold good_at, upd. destruct (String.eqb_spec (lookup_file n) x) as [Ex|N].
      - eauto.
      - destruct Hx as [Hx|Hx]; [congruence|exact Hx]. }
    exists f1. split; [exact E|]. split; [auto|].
    intros i n' [Eq|Hin]; [inversion Eq; subst; auto|eauto]. }
  destruct (A (lookup_tasks SC) fs) as (f1 & E1 & _ & L1).
  { intros t Ht. apply in_lookup_tasks in Ht as (j & n & w & -> & _). eauto. }
  rewrite (run_tasks_app _ _ _ _ _ _ E1).
  assert (B : forall ts f, (forall t, In t ts -> exists i n s p lk, t = TMat i n s p lk /\
                             (lk = true -> good_at f (lookup_file n))) ->
              exists f', run_tasks f run true ts Forever = (f', Finished)).
  { induction ts as [|t r IH]; intros f Ht; [now exists f|].
    destruct (Ht t (or_introl eq_refl)) as (i & n & s & p & lk & -> & Hl).
    assert (E : exists ws, task_writes f run true (TMat i n s p lk) = Ok ws).
    { cbn [task_writes]. unfold get_matrices_or_paths. rewrite andb_false_r. cbn [rbind].
      destruct lk; cbn [rbind]; [|eauto]. destruct (Hl eq_refl) as (v & Ev).
      unfold load. rewrite Ev. cbn [rbind]. eauto. }
    destruct E as (ws & E). cbn [run_tasks]. rewrite E.
    pose proof (do_writes_forever ws f) as Hf.
    pose proof (fun x => good_writes ws f x) as M.
    destruct (do_writes f ws Forever) as [g o]. cbn [fst snd] in *. subst o.
    apply IH. intros t' Hin.
    destruct (Ht t' (or_intror Hin)) as (i' & n' & s' & p' & lk' & -> & Hl').
    exists i', n', s', p', lk'. auto. }
  apply B. intros t Ht. apply in_mat_tasks in Ht as (i & n & m & q & s & -> & Hn & _).
  exists i, n, s, (q && can_profile m), (uses_lookup m). split; [reflexivity|].
  intros Hu. destruct m; try discriminate. apply (L1 i). apply in_lookup_tasks. eauto.
Qed.

Lemma C75_main : forall fs run SC,
  exists fs', process_structure fs run true SC Forever = (fs', Finished) /\
  forall i name m q s, nth_error SC i = Some (Iface name m q) -> computed SC i m s ->
    exists mm, load_mats fs' name s (q && can_profile m) = Ok mm /\ from_run run mm.
Proof.
  intros fs run SC. destruct (overwrite_finishes fs run SC) as (fs' & E).
  exists fs'. split; [exact E|]. intros i name m q s Hn Hc.
  destruct (computed_loads fs run true SC i name m q s fs' Hn Hc E) as (mm & L).
  exists mm. split; [exact L|]. eapply C22_main; eauto.
Qed.
