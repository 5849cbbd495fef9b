(* Proofs about the results directory. *)
From Coq Require Import List Bool Arith Ascii String Lia DecimalString DecimalNat.
From Verif Require Import Base Model_Cache Spec_Cache.
Import ListNotations.
Open Scope string_scope.

(* ---------- strings ---------- *)

Notation la := list_ascii_of_string.

Lemma la_app a b : la (a ++ b) = (la a ++ la b)%list.
Proof. induction a; cbn; [reflexivity|]. now rewrite IHa. Qed.

Lemma la_inj a b : la a = la b -> a = b.
Proof.
  intros H. rewrite <- (string_of_list_ascii_of_string a), <- (string_of_list_ascii_of_string b).
  now rewrite H.
Qed.

Lemma rev_la_inj a b : rev (la a) = rev (la b) -> a = b.
Proof.
  intros H. apply la_inj. rewrite <- (rev_involutive (la a)), <- (rev_involutive (la b)).
  now rewrite H.
Qed.

Lemma app_inj_suffix a b u v : (a ++ u) = (b ++ v) -> (rev (la u) ++ rev (la a))%list = (rev (la v) ++ rev (la b))%list.
Proof.
  intros H. apply (f_equal la) in H. rewrite !la_app in H. apply (f_equal (@rev _)) in H.
  now rewrite !rev_app_distr in H.
Qed.

Lemma mat_file_inj n s k n' s' k' :
  mat_file n s k = mat_file n' s' k' -> n = n' /\ s = s' /\ k = k'.
Proof.
  unfold mat_file. intros H. apply app_inj_suffix in H.
  destruct s, k, s', k'; cbn in H; try discriminate H;
    injection H as H; (split; [apply rev_la_inj; exact H | split; reflexivity]).
Qed.

Lemma app_assoc_s a b c : (a ++ b) ++ c = a ++ (b ++ c).
Proof. apply la_inj. now rewrite !la_app, app_assoc. Qed.

Lemma lookup_mat_clash n n' s k :
  lookup_file n = mat_file n' s k -> k = KProf /\ n = n' ++ side_str s ++ "profmat".
Proof.
  unfold lookup_file, mat_file. intros H. pose proof H as H0. apply app_inj_suffix in H.
  destruct s, k; cbn in H; try discriminate H; split; try reflexivity;
    injection H as H; apply rev_la_inj; rewrite H, !la_app, !rev_app_distr; reflexivity.
Qed.

Lemma lookup_file_inj n n' : lookup_file n = lookup_file n' -> n = n'.
Proof.
  unfold lookup_file. intros H. apply app_inj_suffix in H. cbn in H. injection H as H.
  now apply rev_la_inj.
Qed.

Lemma upd_same fs p c : upd fs p c p = Some c.
Proof. unfold upd. now rewrite String.eqb_refl. Qed.

Lemma upd_other fs p q c : p <> q -> upd fs p c q = fs q.
Proof. intros H. unfold upd. now apply String.eqb_neq in H as ->. Qed.

Lemma mat_neq n s k n' s' k' : (n, s, k) <> (n', s', k') -> mat_file n s k <> mat_file n' s' k'.
Proof. intros H E. apply mat_file_inj in E as (-> & -> & ->). now apply H. Qed.

(* ---------- which files a call can write ---------- *)

Definition task_paths (t : task) : list string :=
  match t with
  | TLookup _ n => [lookup_file n]
  | TMat _ n s prof _ =>
      ([mat_file n s KRT; mat_file n s KA] ++ (if prof then [mat_file n s KProf] else []))%list
  end.

Definition task_idx (t : task) : nat := match t with TLookup i _ => i | TMat i _ _ _ _ => i end.

Lemma task_writes_cases fs run ow t ws :
  task_writes fs run ow t = Ok ws ->
  ws = [] \/ exists v, ws = map (fun p => (p, v)) (task_paths t) /\ fst v = (run, task_idx t).
Proof.
  destruct t as [i n | i n s prof lk]; cbn [task_writes].
  - destruct (isfile fs (lookup_file n) && negb ow).
    + destruct (load fs (lookup_file n)); cbn [rbind]; intros E; inversion E; now left.
    + intros E; inversion E. right. exists ((run, i), None). now split.
  - destruct (get_matrices_or_paths fs n s prof ow) as [[m|]|]; cbn [rbind];
      [intros E; inversion E; now left | | discriminate].
    destruct (if lk then _ else _) as [src|]; cbn [rbind]; [|discriminate].
    intros E; inversion E. right. exists ((run, i), src). split; [|reflexivity].
    now destruct prof.
Qed.

Lemma task_writes_paths fs run ow t ws p v :
  task_writes fs run ow t = Ok ws -> In (p, v) ws -> In p (task_paths t).
Proof.
  intros H Hin. apply task_writes_cases in H as [-> | (w & -> & _)]; [easy|].
  apply in_map_iff in Hin as (q & E & Hq). now inversion E; subst.
Qed.

Lemma do_writes_frame ws : forall fs b p,
  (forall v, ~ In (p, v) ws) -> fst (do_writes fs ws b) p = fs p.
Proof.
  induction ws as [|[q w] r IH]; intros fs b p H; [reflexivity|].
  assert (q <> p) by (intros ->; apply (H w); now left).
  assert (forall v, ~ In (p, v) r) by (intros v Hv; apply (H v); now right).
  cbn [do_writes]. destruct b as [|[|k] torn]; rewrite ?IH by assumption; try now apply upd_other.
  destruct torn; cbn [fst]; [now apply upd_other|reflexivity].
Qed.

Lemma run_tasks_inv (P : fsys -> Prop) run ow ts : forall fs b,
  (forall t fs ws b, In t ts -> P fs -> task_writes fs run ow t = Ok ws ->
     P (fst (do_writes fs ws b))) ->
  P fs -> P (fst (run_tasks fs run ow ts b)).
Proof.
  induction ts as [|t r IH]; intros fs b H H0; [exact H0|].
  cbn [run_tasks]. destruct (task_writes fs run ow t) as [ws|] eqn:E; [|exact H0].
  specialize (H t fs ws b (or_introl eq_refl) H0 E) as H1.
  destruct (do_writes fs ws b) as [fs' [b'|]]; cbn [fst] in H1; [|exact H1].
  apply IH; [|exact H1]. intros t' fs0 ws0 b0 Hin. apply H. now right.
Qed.

Lemma run_tasks_frame run ow ts fs b p :
  (forall t, In t ts -> ~ In p (task_paths t)) -> fst (run_tasks fs run ow ts b) p = fs p.
Proof.
  intros H. apply (run_tasks_inv (fun g => g p = fs p)); [|reflexivity].
  intros t g ws b' Hin Hg E. rewrite do_writes_frame; [exact Hg|].
  intros v Hv. apply (H t Hin). eapply task_writes_paths; eauto.
Qed.

(* ---------- the calls made by process_structure ---------- *)

Lemma in_enumerate {A} (l : list A) i x : In (i, x) (enumerate l) <-> nth_error l i = Some x.
Proof.
  unfold enumerate.
  assert (G : forall (l : list A) s i, In (i, x) (combine (seq s (List.length l)) l) <->
              (s <= i)%nat /\ nth_error l (i - s) = Some x).
  { clear. induction l as [|a l IH]; intros s i; cbn [List.length seq combine].
    - split; [easy|]. intros [_ H]. destruct (i - s)%nat; discriminate.
    - cbn [In]. rewrite IH. split.
      + intros [E | [H1 H2]].
        * inversion E; subst. split; [lia|]. now rewrite Nat.sub_diag.
        * split; [lia|]. replace (i - s)%nat with (S (i - S s)) by lia. exact H2.
      + intros [H1 H2]. destruct (Nat.eq_dec i s) as [->|N].
        * rewrite Nat.sub_diag in H2. left. now inversion H2.
        * right. split; [lia|]. replace (i - s)%nat with (S (i - S s)) in H2 by lia. exact H2. }
  rewrite G. rewrite Nat.sub_0_r. split; [now intros [_ H]|]. intros H; split; [lia|exact H].
Qed.

Lemma in_lookup_tasks SC t : In t (lookup_tasks SC) <->
  exists i n q, t = TLookup i n /\ nth_error SC i = Some (Iface n MRT_TMM q).
Proof.
  unfold lookup_tasks. rewrite in_flat_map. split.
  - intros ([i e] & Hin & Ht). apply in_enumerate in Hin. cbn [fst snd] in Ht.
    destruct e as [n m q|]; [|easy]. destruct m; try easy.
    destruct Ht as [<-|[]]. eauto.
  - intros (i & n & q & -> & H). exists (i, Iface n MRT_TMM q).
    split; [now apply in_enumerate|]. now left.
Qed.

Definition uses_lookup (m : meth) : bool := match m with MRT_TMM => true | _ => false end.

Lemma in_which_sides SC i s :
  (i < List.length SC)%nat -> In s (which_sides SC i) <-> needed SC i s.
Proof.
  intros Hi. unfold which_sides, needed.
  destruct (Nat.eqb_spec i (List.length SC - 1)) as [E|E]; destruct s; cbn [In]; split; intros H;
    try (now left); try (right; lia); try (right; now left).
  - destruct H as [H|[]]; discriminate.
  - destruct H as [H|H]; [discriminate|lia].
Qed.

Lemma in_mat_tasks SC t : In t (mat_tasks SC) <->
  exists i n m q s, t = TMat i n s (q && can_profile m) (uses_lookup m) /\
    nth_error SC i = Some (Iface n m q) /\
    (if both_sides m then needed SC i s else s = Front).
Proof.
  unfold mat_tasks. rewrite in_flat_map. split.
  - intros ([i e] & Hin & Ht). apply in_enumerate in Hin. cbn [fst snd] in Ht.
    assert (Hi : (i < List.length SC)%nat) by (apply nth_error_Some; now rewrite Hin).
    destruct e as [n m q|]; [|easy].
    exists i, n, m, q.
    destruct m; cbn [can_profile uses_lookup both_sides] in *;
      rewrite ?andb_false_r, ?andb_true_r;
      try (destruct Ht as [<-|[]]; now exists Front);
      apply in_map_iff in Ht as (s & <- & Hs); exists s; rewrite in_which_sides in Hs by exact Hi;
      now split.
  - intros (i & n & m & q & s & -> & H & Hs).
    assert (Hi : (i < List.length SC)%nat) by (apply nth_error_Some; now rewrite H).
    exists (i, Iface n m q). split; [now apply in_enumerate|]. cbn [fst snd].
    destruct m; cbn [can_profile uses_lookup both_sides] in *;
      rewrite ?andb_false_r, ?andb_true_r;
      try (subst s; now left);
      apply in_map_iff; exists s; (split; [reflexivity|]); now apply in_which_sides.
Qed.

Lemma in_tasks SC t : In t (tasks SC) <-> In t (lookup_tasks SC) \/ In t (mat_tasks SC).
Proof. unfold tasks. apply in_app_iff. Qed.

(* a call touches none of the three files of (name, s) unless it computes them *)
Lemma task_frame SC name s t k :
  no_clash SC name s -> In t (tasks SC) ->
  (exists i m q, t = TMat i name s (q && can_profile m) (uses_lookup m) /\
                 nth_error SC i = Some (Iface name m q)) \/
  ~ In (mat_file name s k) (task_paths t).
Proof.
  intros Hc Hin. apply in_tasks in Hin as [Hin|Hin].
  - right. apply in_lookup_tasks in Hin as (i & n & q & -> & Hn).
    intros [E|[]]. apply lookup_mat_clash in E as (_ & ->).
    apply (Hc q). now apply nth_error_In with i.
  - apply in_mat_tasks in Hin as (i & n & m & q & s' & -> & Hn & _).
    assert (D : {(n, s') = (name, s)} + {(n, s') <> (name, s)}).
    { decide equality; [decide equality|apply string_dec]. }
    destruct D as [E|E]; [inversion E; subst; left; now exists i, m, q|right].
    cbn [task_paths]. intros H. apply E.
    assert (exists k', mat_file n s' k' = mat_file name s k) as (k' & Ek).
    { apply in_app_iff in H as [H|H].
      - destruct H as [H|[H|[]]]; eauto.
      - destruct (q && can_profile m); [|easy]. destruct H as [H|[]]; eauto. }
    apply mat_file_inj in Ek as (-> & -> & _). reflexivity.
Qed.

(* ---------- invariant of the three files of one interface and side ---------- *)

Section Triple.
Variables (name : string) (s : side).
Notation rt fs := (fs (mat_file name s KRT)).
Notation am fs := (fs (mat_file name s KA)).
Notation pm fs := (fs (mat_file name s KProf)).

Definition same3 (fs g : fsys) := forall k, g (mat_file name s k) = fs (mat_file name s k).

Lemma run_triple (P : fsys -> Prop) SC run ow fs b p :
  (forall f g, same3 f g -> P f -> P g) ->
  no_clash SC name s -> prof_setting SC name p ->
  (forall i lk fs ws b, P fs -> task_writes fs run ow (TMat i name s p lk) = Ok ws ->
     P (fst (do_writes fs ws b))) ->
  P fs -> P (fst (process_structure fs run ow SC b)).
Proof.
  intros Hext Hc Hp H. apply run_tasks_inv. intros t g ws b' Hin Hg E.
  destruct (task_frame SC name s t KRT Hc Hin) as [(i & m & q & -> & Hn)|F1].
  { rewrite (Hp m q) in E by now apply nth_error_In with i. now apply (H i (uses_lookup m)). }
  destruct (task_frame SC name s t KA Hc Hin) as [(i & m & q & -> & Hn)|F2].
  { rewrite (Hp m q) in E by now apply nth_error_In with i. now apply (H i (uses_lookup m)). }
  destruct (task_frame SC name s t KProf Hc Hin) as [(i & m & q & -> & Hn)|F3].
  { rewrite (Hp m q) in E by now apply nth_error_In with i. now apply (H i (uses_lookup m)). }
  apply (Hext g); [|exact Hg]. intros k. apply do_writes_frame. intros v Hv.
  destruct k; [apply F1|apply F2|apply F3]; eapply task_writes_paths; eauto.
Qed.

Lemma get_none_or fs p ow m :
  get_matrices_or_paths fs name s p ow = Ok (Some m) ->
  ow = false /\ load_mats fs name s p = Ok m.
Proof.
  unfold get_matrices_or_paths, load_mats.
  destruct (isfile fs (mat_file name s KRT) && isfile fs (mat_file name s KA) && negb ow) eqn:E;
    [|discriminate].
  apply andb_prop in E as [_ E]. destruct ow; [discriminate|].
  destruct (load fs (mat_file name s KRT)) as [x|]; cbn [rbind]; [|discriminate].
  destruct (load fs (mat_file name s KA)) as [y|]; cbn [rbind]; [|discriminate].
  destruct p.
  - destruct (isfile fs (mat_file name s KProf)); [|discriminate].
    destruct (load fs (mat_file name s KProf)) as [z|]; cbn [rbind]; [|discriminate].
    intros H; inversion H; now split.
  - intros H; inversion H; now split.
Qed.

Lemma load_good fs p v : load fs p = Ok v <-> fs p = Some (Good v).
Proof.
  unfold load. destruct (fs p) as [[w|]|]; split; intros H; try discriminate; inversion H; reflexivity.
Qed.

Lemma load_mats_ok fs p m :
  load_mats fs name s p = Ok m ->
  rt fs = Some (Good (m_RT m)) /\ am fs = Some (Good (m_A m)) /\
  (if p then exists w, m_prof m = Some w /\ pm fs = Some (Good w) else m_prof m = None).
Proof.
  unfold load_mats.
  destruct (load fs (mat_file name s KRT)) as [x|] eqn:E1; cbn [rbind]; [|discriminate].
  destruct (load fs (mat_file name s KA)) as [y|] eqn:E2; cbn [rbind]; [|discriminate].
  apply load_good in E1, E2.
  destruct p.
  - destruct (load fs (mat_file name s KProf)) as [z|] eqn:E3; cbn [rbind]; [|discriminate].
    apply load_good in E3. intros H; inversion H; cbn. eauto.
  - intros H; inversion H; cbn. auto.
Qed.

Lemma load_mats_intro fs (p : bool) a b c :
  rt fs = Some (Good a) -> am fs = Some (Good b) -> (p = true -> pm fs = Some (Good c)) ->
  load_mats fs name s p =
  Ok {| m_RT := a; m_A := b; m_prof := if p then Some c else None |}.
Proof.
  intros H1 H2 H3. unfold load_mats. apply load_good in H1, H2. rewrite H1, H2. cbn [rbind].
  destruct p; [|reflexivity]. specialize (H3 eq_refl). apply load_good in H3. now rewrite H3.
Qed.

(* the writes of one computation, after each possible number of completed writes *)
Lemma mat_neqs :
  mat_file name s KRT <> mat_file name s KA /\ mat_file name s KRT <> mat_file name s KProf /\
  mat_file name s KA <> mat_file name s KProf.
Proof. do 2 (split; [apply mat_neq; discriminate|]). apply mat_neq; discriminate. Qed.

Ltac upds :=
  let H1 := fresh in let H2 := fresh in let H3 := fresh in
  pose proof mat_neqs as (H1 & H2 & H3);
  repeat first [ rewrite upd_same | rewrite (upd_other _ _ _ _ H1) | rewrite (upd_other _ _ _ _ H2)
    | rewrite (upd_other _ _ _ _ H3) | rewrite (upd_other _ _ _ _ (not_eq_sym H1))
    | rewrite (upd_other _ _ _ _ (not_eq_sym H2)) | rewrite (upd_other _ _ _ _ (not_eq_sym H3)) ].

Definition ws_of (p : bool) (v : prov) : list (string * prov) :=
  ([(mat_file name s KRT, v); (mat_file name s KA, v)]
     ++ (if p then [(mat_file name s KProf, v)] else []))%list.

Ltac st := solve [
    left; repeat apply conj; (reflexivity || discriminate)
  | right; left; repeat apply conj; (reflexivity || discriminate)
  | do 2 right; left; repeat apply conj; (reflexivity || discriminate)
  | do 3 right; left; repeat apply conj; (reflexivity || discriminate)
  | do 4 right; left; repeat apply conj; (reflexivity || discriminate)
  | do 5 right; left; repeat apply conj; (reflexivity || discriminate)
  | do 6 right; repeat apply conj; reflexivity ].

(* what the three files can be after running these writes with a budget *)
Lemma ws_states p v fs b g :
  g = fst (do_writes fs (ws_of p v) b) ->
  let V := Some (Good v) in
     (rt g = rt fs /\ am g = am fs /\ pm g = pm fs /\ b <> Forever)
  \/ (rt g = Some Torn /\ am g = am fs /\ pm g = pm fs /\ b <> Forever)
  \/ (rt g = V /\ am g = am fs /\ pm g = pm fs /\ b <> Forever)
  \/ (rt g = V /\ am g = Some Torn /\ pm g = pm fs /\ b <> Forever)
  \/ (p = true /\ rt g = V /\ am g = V /\ pm g = pm fs /\ b <> Forever)
  \/ (p = true /\ rt g = V /\ am g = V /\ pm g = Some Torn /\ b <> Forever)
  \/ (rt g = V /\ am g = V /\ pm g = if p then V else pm fs).
Proof.
  intros -> V. unfold ws_of. destruct p; cbn [app].
  - destruct b as [|[|[|[|k]]] [|]]; cbn [do_writes fst]; upds; st.
  - destruct b as [|[|[|k]] [|]]; cbn [do_writes fst]; upds; st.
Qed.

Lemma task_ws fs run ow i p lk ws :
  task_writes fs run ow (TMat i name s p lk) = Ok ws ->
  (ws = [] /\ ow = false /\ exists m, load_mats fs name s p = Ok m) \/
  (get_matrices_or_paths fs name s p ow = Ok None /\
   exists src, ws = ws_of p ((run, i), src)).
Proof.
  cbn [task_writes].
  destruct (get_matrices_or_paths fs name s p ow) as [[m|]|] eqn:E; cbn [rbind];
    [| |discriminate].
  - intros H; inversion H. left. apply get_none_or in E as (-> & E). eauto.
  - destruct (if lk then _ else _) as [src|]; cbn [rbind]; [|discriminate].
    intros H; inversion H. right. split; [reflexivity|]. now exists src.
Qed.

Lemma get_none fs p :
  get_matrices_or_paths fs name s p false = Ok None ->
  rt fs = None \/ am fs = None \/ (p = true /\ pm fs = None).
Proof.
  unfold get_matrices_or_paths, isfile, load.
  destruct (rt fs) as [[x|]|]; [| |now left]; destruct (am fs) as [[y|]|]; cbn; try discriminate;
    try (right; now left).
  destruct p; [|discriminate].
  destruct (pm fs) as [[z|]|]; cbn; try discriminate. auto.
Qed.

(* --- invariant without overwriting --- *)
Definition Inv (runs : list nat) (p : bool) (fs : fsys) : Prop :=
  if p then
    pm fs = None \/ pm fs = Some Torn \/
    exists v, In (fst (fst v)) runs /\
      rt fs = Some (Good v) /\ am fs = Some (Good v) /\ pm fs = Some (Good v)
  else
    am fs = None \/ am fs = Some Torn \/
    exists v, In (fst (fst v)) runs /\ rt fs = Some (Good v) /\ am fs = Some (Good v).

Lemma Inv_ext runs p f g : same3 f g -> Inv runs p f -> Inv runs p g.
Proof.
  intros H. unfold Inv. rewrite (H KRT), (H KA), (H KProf). auto.
Qed.

Lemma Inv_step runs p run i lk fs ws b :
  In run runs -> Inv runs p fs -> task_writes fs run false (TMat i name s p lk) = Ok ws ->
  Inv runs p (fst (do_writes fs ws b)).
Proof.
  intros Hr HI E. apply task_ws in E as [(-> & _ & _)|(Hg & src & ->)]; [exact HI|].
  apply get_none in Hg.
  pose proof (ws_states p ((run, i), src) fs b _ eq_refl) as W. cbn zeta in W.
  set (g := fst (do_writes fs (ws_of p ((run, i), src)) b)) in *. clearbody g.
  unfold Inv in *. destruct p.
  - assert (Hpm : pm fs = None \/ pm fs = Some Torn).
    { destruct HI as [H|[H|(v & _ & H1 & H2 & H3)]]; auto.
      rewrite H1, H2, H3 in Hg. destruct Hg as [Hg|[Hg|[_ Hg]]]; discriminate. }
    destruct W as [W|[W|[W|[W|[W|[W|W]]]]]];
      try (destruct W as (_ & _ & W & _); rewrite W; tauto).
    + destruct W as (_ & _ & _ & W & _). rewrite W. tauto.
    + destruct W as (_ & _ & _ & W & _). rewrite W. tauto.
    + destruct W as (W1 & W2 & W3). do 2 right. exists ((run, i), src). cbn [fst]. auto.
  - assert (Ham : am fs = None \/ am fs = Some Torn).
    { destruct HI as [H|[H|(v & _ & H1 & H2)]]; auto.
      rewrite H1, H2 in Hg. destruct Hg as [Hg|[Hg|[Hg _]]]; discriminate. }
    destruct W as [W|[W|[W|[W|[W|[W|W]]]]]];
      try (destruct W as (_ & W & _); rewrite W; tauto);
      try (destruct W as (W & _); discriminate W).
    destruct W as (W1 & W2 & _). do 2 right. exists ((run, i), src). cbn [fst]. auto.
Qed.

Lemma Inv_mono runs runs' p fs : incl runs runs' -> Inv runs p fs -> Inv runs' p fs.
Proof.
  intros Hi. unfold Inv. destruct p.
  - intros [H|[H|(v & H1 & H2)]]; auto. do 2 right. exists v. auto.
  - intros [H|[H|(v & H1 & H2)]]; auto. do 2 right. exists v. auto.
Qed.

Lemma Inv_history runs p cs : forall fs,
  (forall c, In c cs -> c_overwrite c = false /\ prof_setting (c_SC c) name p /\
                        no_clash (c_SC c) name s /\ In (c_run c) runs) ->
  Inv runs p fs -> Inv runs p (history fs cs).
Proof.
  induction cs as [|c cs IH]; intros fs H HI; [exact HI|].
  cbn [history fold_left]. apply IH; [intros c' Hc'; apply H; now right|].
  destruct (H c (or_introl eq_refl)) as (Ho & Hp & Hc & Hr).
  unfold do_call. rewrite Ho.
  apply (run_triple (Inv runs p)) with (p := p); auto.
  - apply Inv_ext.
  - intros i lk g ws b Hg E. eapply Inv_step; eauto.
Qed.

Lemma Inv_one_origin runs p fs m :
  Inv runs p fs -> load_mats fs name s p = Ok m ->
  one_origin m /\ In (fst (fst (m_RT m))) runs.
Proof.
  intros HI H. apply load_mats_ok in H as (H1 & H2 & H3). unfold Inv in HI.
  unfold one_origin.
  destruct p.
  - destruct H3 as (w & Ew & H3).
    destruct HI as [H|[H|(v & Hv & A & B & C)]]; try congruence.
    assert (E1 : m_RT m = v) by congruence. assert (E2 : m_A m = v) by congruence.
    assert (E3 : w = v) by congruence. rewrite E1, E2.
    split; [split; [reflexivity|]|exact Hv]. intros x Hx. congruence.
  - destruct HI as [H|[H|(v & Hv & A & B)]]; try congruence.
    assert (E1 : m_RT m = v) by congruence. assert (E2 : m_A m = v) by congruence.
    rewrite E1, E2. split; [split; [reflexivity|]|exact Hv]. intros x Hx. congruence.
Qed.

(* --- overwriting allowed, no kills --- *)
Definition InvF (p : bool) (fs : fsys) : Prop :=
  (rt fs = None /\ am fs = None /\ pm fs = None) \/
  exists v, rt fs = Some (Good v) /\ am fs = Some (Good v) /\
    (if p then pm fs = Some (Good v) else pm fs = None).

Lemma InvF_ext p f g : same3 f g -> InvF p f -> InvF p g.
Proof. intros H. unfold InvF. rewrite (H KRT), (H KA), (H KProf). auto. Qed.

Lemma InvF_step p run ow i lk fs ws :
  InvF p fs -> task_writes fs run ow (TMat i name s p lk) = Ok ws ->
  InvF p (fst (do_writes fs ws Forever)).
Proof.
  intros HI E. apply task_ws in E as [(-> & _ & _)|(_ & src & ->)]; [exact HI|].
  pose proof (ws_states p ((run, i), src) fs Forever _ eq_refl) as W. cbn zeta in W.
  set (g := fst (do_writes fs (ws_of p ((run, i), src)) Forever)) in *. clearbody g.
  destruct W as [W|[W|[W|[W|[W|[W|W]]]]]]; try (exfalso; tauto).
  destruct W as (W1 & W2 & W3). right. exists ((run, i), src).
  split; [exact W1|]. split; [exact W2|]. destruct p; [exact W3|].
  rewrite W3. destruct HI as [(_ & _ & H)|(v & _ & _ & H)]; exact H.
Qed.
End Triple.

(* runs that are never killed *)
Lemma do_writes_forever ws : forall fs, snd (do_writes fs ws Forever) = Some Forever.
Proof. induction ws as [|[p v] r IH]; intros fs; [reflexivity|]. cbn [do_writes]. apply IH. Qed.

Lemma run_tasks_inv_forever (P : fsys -> Prop) run ow ts : forall fs,
  (forall t fs ws, In t ts -> P fs -> task_writes fs run ow t = Ok ws ->
     P (fst (do_writes fs ws Forever))) ->
  P fs -> P (fst (run_tasks fs run ow ts Forever)).
Proof.
  induction ts as [|t r IH]; intros fs H H0; [exact H0|].
  cbn [run_tasks]. destruct (task_writes fs run ow t) as [ws|] eqn:E; [|exact H0].
  specialize (H t fs ws (or_introl eq_refl) H0 E) as H1.
  pose proof (do_writes_forever ws fs) as H2.
  destruct (do_writes fs ws Forever) as [fs' o]; cbn [fst snd] in *. subst o.
  apply IH; [|exact H1]. intros t' fs0 ws0 Hin. apply H. now right.
Qed.

Lemma run_triple_forever name s (P : fsys -> Prop) SC run ow fs p :
  (forall f g, same3 name s f g -> P f -> P g) ->
  no_clash SC name s -> prof_setting SC name p ->
  (forall i lk fs ws, P fs -> task_writes fs run ow (TMat i name s p lk) = Ok ws ->
     P (fst (do_writes fs ws Forever))) ->
  P fs -> P (fst (process_structure fs run ow SC Forever)).
Proof.
  intros Hext Hc Hp H. apply run_tasks_inv_forever. intros t g ws Hin Hg E.
  destruct (task_frame SC name s t KRT Hc Hin) as [(i & m & q & -> & Hn)|F1].
  { rewrite (Hp m q) in E by now apply nth_error_In with i. now apply (H i (uses_lookup m)). }
  destruct (task_frame SC name s t KA Hc Hin) as [(i & m & q & -> & Hn)|F2].
  { rewrite (Hp m q) in E by now apply nth_error_In with i. now apply (H i (uses_lookup m)). }
  destruct (task_frame SC name s t KProf Hc Hin) as [(i & m & q & -> & Hn)|F3].
  { rewrite (Hp m q) in E by now apply nth_error_In with i. now apply (H i (uses_lookup m)). }
  apply (Hext g); [|exact Hg]. intros k. apply do_writes_frame. intros v Hv.
  destruct k; [apply F1|apply F2|apply F3]; eapply task_writes_paths; eauto.
Qed.

Lemma InvF_history name s p cs : forall fs,
  (forall c, In c cs -> c_budget c = Forever /\ prof_setting (c_SC c) name p /\
                        no_clash (c_SC c) name s) ->
  InvF name s p fs -> InvF name s p (history fs cs).
Proof.
  induction cs as [|c cs IH]; intros fs H HI; [exact HI|].
  cbn [history fold_left]. apply IH; [intros c' Hc'; apply H; now right|].
  destruct (H c (or_introl eq_refl)) as (Ho & Hp & Hc).
  unfold do_call. rewrite Ho.
  apply (run_triple_forever name s (InvF name s p)) with (p := p); auto.
  - intros f g. apply InvF_ext.
  - intros i lk g ws Hg E. eapply InvF_step; eauto.
Qed.

Lemma InvF_one_origin name s p fs m :
  InvF name s p fs -> load_mats fs name s p = Ok m -> one_origin m.
Proof.
  intros HI H. apply load_mats_ok in H as (H1 & H2 & H3). unfold one_origin.
  destruct HI as [(A & _)|(v & A & B & C)]; [congruence|].
  rewrite H1 in A. rewrite H2 in B. inversion A. inversion B.
  split; [congruence|]. intros w Hw.
  destruct p; [|congruence]. destruct H3 as (w' & E & H3). rewrite H3 in C. congruence.
Qed.

(* ---------- C18 ---------- *)

Lemma C18_main : forall name s p cs fs,
  absent fs name s ->
  (forall c, In c cs -> c_overwrite c = false /\ prof_setting (c_SC c) name p /\
                        no_clash (c_SC c) name s) ->
  forall m, get_matrices_or_paths (history fs cs) name s p false = Ok (Some m) \/
            load_mats (history fs cs) name s p = Ok m ->
  one_origin m /\ exists c, In c cs /\ c_run c = fst (fst (m_RT m)).
Proof.
  intros name s p cs fs Ha H m Hm.
  assert (Hl : load_mats (history fs cs) name s p = Ok m).
  { destruct Hm as [Hm|Hm]; [|exact Hm]. now apply get_none_or in Hm as (_ & Hm). }
  assert (HI : Inv name s (map c_run cs) p (history fs cs)).
  { apply Inv_history.
    - intros c Hc. destruct (H c Hc) as (A & B & C).
      do 3 (split; [assumption|]). now apply in_map.
    - unfold Inv. destruct p; left; apply Ha. }
  apply (Inv_one_origin _ _ _ _ _ _ HI) in Hl as (H1 & H2). split; [exact H1|].
  apply in_map_iff in H2 as (c & Ec & Hc). eauto.
Qed.

(* --- recovery: no torn file means no exception --- *)

Lemma no_torn_upd fs p v : no_torn fs -> no_torn (upd fs p (Good v)).
Proof. intros H q. unfold upd. destruct (String.eqb p q); [discriminate|apply H]. Qed.

Lemma no_torn_writes ws : forall fs b,
  clean_kill b -> no_torn fs ->
  no_torn (fst (do_writes fs ws b)) /\
  forall b', snd (do_writes fs ws b) = Some b' -> clean_kill b'.
Proof.
  induction ws as [|[p v] r IH]; intros fs b Hb H.
  - cbn. split; [exact H|]. intros b' E; inversion E; now subst.
  - cbn [do_writes]. destruct b as [|[|k] torn].
    + apply IH; [exact Hb|]. now apply no_torn_upd.
    + destruct torn; [exfalso; now apply (Hb O)|]. cbn. split; [exact H|discriminate].
    + apply IH; [|now apply no_torn_upd]. intros k' E. inversion E; subst. now apply (Hb (S k')).
Qed.

Lemma no_torn_run run ow ts : forall fs b,
  clean_kill b -> no_torn fs -> no_torn (fst (run_tasks fs run ow ts b)).
Proof.
  induction ts as [|t r IH]; intros fs b Hb H; [exact H|].
  cbn [run_tasks]. destruct (task_writes fs run ow t) as [ws|]; [|exact H].
  destruct (no_torn_writes ws fs b Hb H) as (H1 & H2).
  destruct (do_writes fs ws b) as [fs' [b'|]]; cbn [fst snd] in *; [|exact H1].
  apply IH; auto.
Qed.

Lemma no_torn_history cs : forall fs,
  (forall c, In c cs -> clean_kill (c_budget c)) -> no_torn fs -> no_torn (history fs cs).
Proof.
  induction cs as [|c cs IH]; intros fs H H0; [exact H0|].
  cbn [history fold_left]. apply IH; [intros c' Hc'; apply H; now right|].
  apply no_torn_run; [|exact H0]. apply H. now left.
Qed.

Lemma exists_mono ws : forall fs b p, fs p <> None -> fst (do_writes fs ws b) p <> None.
Proof.
  induction ws as [|[q v] r IH]; intros fs b p H; [exact H|].
  assert (U : forall c, upd fs q c p <> None).
  { intros c. unfold upd. destruct (String.eqb q p); [discriminate|exact H]. }
  cbn [do_writes]. destruct b as [|[|k] torn]; try (apply IH; apply U).
  destruct torn; cbn [fst]; auto.
Qed.

Lemma no_torn_load fs p : no_torn fs -> fs p <> None -> exists v, load fs p = Ok v.
Proof.
  intros H H0. unfold load. destruct (fs p) as [[v|]|] eqn:E; [eauto| |congruence].
  exfalso. now apply (H p).
Qed.

Lemma no_torn_get fs n s p ow : no_torn fs -> exists o, get_matrices_or_paths fs n s p ow = Ok o.
Proof.
  intros H. unfold get_matrices_or_paths.
  destruct (isfile fs (mat_file n s KRT)) eqn:E1; cbn [andb]; [|eauto].
  destruct (isfile fs (mat_file n s KA)) eqn:E2; cbn [andb]; [|eauto].
  destruct (negb ow); [|eauto].
  assert (L : forall k, isfile fs (mat_file n s k) = true -> exists v, load fs (mat_file n s k) = Ok v).
  { intros k E. apply no_torn_load; [exact H|]. unfold isfile in E.
    destruct (fs (mat_file n s k)); [discriminate|discriminate]. }
  destruct (L _ E1) as (v1 & ->), (L _ E2) as (v2 & ->). cbn [rbind].
  destruct p; [|eauto]. destruct (isfile fs (mat_file n s KProf)) eqn:E3; [|eauto].
  destruct (L _ E3) as (v3 & ->). cbn [rbind]. eauto.
Qed.

Lemma do_writes_mem ws : forall fs p v, In (p, v) ws -> fst (do_writes fs ws Forever) p <> None.
Proof.
  induction ws as [|[q w] r IH]; intros fs p v; [easy|]. cbn [do_writes].
  intros [E|Hin]; [|eapply IH; eauto]. inversion E; subst. apply exists_mono. rewrite upd_same.
  discriminate.
Qed.

(* the lookup phase: every table exists afterwards *)
Lemma lookup_phase run ow : forall ts fs, no_torn fs ->
  (forall t, In t ts -> exists i n, t = TLookup i n) ->
  exists fs', run_tasks fs run ow ts Forever = (fs', Finished) /\ no_torn fs' /\
    (forall p, fs p <> None -> fs' p <> None) /\
    (forall i n, In (TLookup i n) ts -> fs' (lookup_file n) <> None).
Proof.
  induction ts as [|t r IH]; intros fs H Ht; [exists fs; cbn; auto|].
  destruct (Ht t (or_introl eq_refl)) as (i & n & ->).
  assert (E : exists ws, task_writes fs run ow (TLookup i n) = Ok ws /\
              (fst (do_writes fs ws Forever)) (lookup_file n) <> None).
  { cbn [task_writes]. destruct (isfile fs (lookup_file n)) eqn:E1.
    - assert (N : fs (lookup_file n) <> None).
      { unfold isfile in E1. destruct (fs (lookup_file n)); discriminate. }
      destruct (no_torn_load fs (lookup_file n) H N) as (v & E).
      destruct ow; cbn [andb negb].
      + eexists. split; [reflexivity|]. now apply exists_mono.
      + rewrite E. cbn [rbind]. eexists. split; [reflexivity|]. now apply exists_mono.
    - cbn [andb]. eexists. split; [reflexivity|]. cbn [do_writes fst]. rewrite upd_same. discriminate. }
  destruct E as (ws & E & N). cbn [run_tasks]. rewrite E.
  assert (CF : clean_kill Forever) by (intros k; discriminate).
  destruct (no_torn_writes ws fs Forever CF H) as (T & _).
  pose proof (do_writes_forever ws fs) as Hf.
  pose proof (fun p => exists_mono ws fs Forever p) as M.
  destruct (do_writes fs ws Forever) as [fs1 o]. cbn [fst snd] in *. subst o.
  destruct (IH fs1 T) as (fs' & E' & T' & M' & L'); [intros t' Hin; apply Ht; now right|].
  exists fs'. split; [exact E'|]. split; [exact T'|]. split; [auto|].
  intros i' n' [Eq|Hin]; [inversion Eq; subst; auto|eauto].
Qed.

Lemma mat_phase run ow : forall ts fs, no_torn fs ->
  (forall t, In t ts -> exists i n s p lk, t = TMat i n s p lk /\
      (lk = true -> fs (lookup_file n) <> None)) ->
  exists fs', run_tasks fs run ow ts Forever = (fs', Finished) /\ no_torn fs'.
Proof.
  induction ts as [|t r IH]; intros fs H Ht; [exists fs; cbn; auto|].
  destruct (Ht t (or_introl eq_refl)) as (i & n & s & p & lk & -> & Hl).
  assert (E : exists ws, task_writes fs run ow (TMat i n s p lk) = Ok ws).
  { cbn [task_writes]. destruct (no_torn_get fs n s p ow H) as ([m|] & ->); cbn [rbind]; [eauto|].
    destruct lk; cbn [rbind]; [|eauto].
    destruct (no_torn_load fs (lookup_file n) H (Hl eq_refl)) as (v & ->). cbn [rbind]. eauto. }
  destruct E as (ws & E). cbn [run_tasks]. rewrite E.
  assert (CF : clean_kill Forever) by (intros k; discriminate).
  destruct (no_torn_writes ws fs Forever CF H) as (T & _).
  pose proof (do_writes_forever ws fs) as Hf.
  pose proof (fun p => exists_mono ws fs Forever p) as M.
  destruct (do_writes fs ws Forever) as [fs1 o]. cbn [fst snd] in *. subst o.
  apply IH; [exact T|]. intros t' Hin.
  destruct (Ht t' (or_intror Hin)) as (i' & n' & s' & p' & lk' & -> & Hl').
  exists i', n', s', p', lk'. split; [reflexivity|]. intros X. apply M. auto.
Qed.

Lemma run_tasks_app run ow t2 : forall t1 fs fs1,
  run_tasks fs run ow t1 Forever = (fs1, Finished) ->
  run_tasks fs run ow (t1 ++ t2) Forever = run_tasks fs1 run ow t2 Forever.
Proof.
  induction t1 as [|t r IH]; intros fs fs1; cbn [run_tasks app].
  - intros E; now inversion E.
  - destruct (task_writes fs run ow t) as [ws|]; [|discriminate].
    pose proof (do_writes_forever ws fs) as Hf.
    destruct (do_writes fs ws Forever) as [g o]. cbn [snd] in Hf. subst o. apply IH.
Qed.

Lemma process_finishes fs run ow SC : no_torn fs ->
  exists fs', process_structure fs run ow SC Forever = (fs', Finished) /\ no_torn fs'.
Proof.
  intros H. unfold process_structure, tasks.
  destruct (lookup_phase run ow (lookup_tasks SC) fs H) as (fs1 & E1 & T1 & M1 & L1).
  { intros t Ht. apply in_lookup_tasks in Ht as (i & n & q & -> & _). eauto. }
  rewrite (run_tasks_app _ _ _ _ _ _ E1). apply mat_phase; [exact T1|].
  intros t Ht. apply in_mat_tasks in Ht as (i & n & m & q & s & -> & Hn & _).
  exists i, n, s, (q && can_profile m), (uses_lookup m). split; [reflexivity|].
  intros Hu. destruct m; try discriminate. apply (L1 i). apply in_lookup_tasks. eauto.
Qed.

Lemma C18_recover : forall cs fs SC run ow,
  no_torn fs -> (forall c, In c cs -> clean_kill (c_budget c)) ->
  exists fs', process_structure (history fs cs) run ow SC Forever = (fs', Finished).
Proof.
  intros cs fs SC run ow H Hc.
  destruct (process_finishes (history fs cs) run ow SC) as (fs' & E & _).
  { now apply no_torn_history. }
  eauto.
Qed.

(* ---------- C19 ---------- *)

Lemma C19_main : forall name s p cs fs,
  absent fs name s ->
  (forall c, In c cs -> c_budget c = Forever /\ prof_setting (c_SC c) name p /\
                        no_clash (c_SC c) name s) ->
  forall m, load_mats (history fs cs) name s p = Ok m -> one_origin m.
Proof.
  intros name s p cs fs Ha H m Hm. apply InvF_one_origin with (2 := Hm).
  apply InvF_history; [exact H|]. left. repeat split; apply Ha.
Qed.
