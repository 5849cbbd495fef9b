(* get_savepath and the default number of rays. *)
From Coq Require Import Reals List ZArith Bool String Lia Lra.
From Verif Require Import Base Lib Model_Structure Model_Cache Model_Process Spec_Process Proof_RTStruct3.
Import ListNotations.
Local Notation length := List.length.
Open Scope list_scope.
Open Scope R_scope.

Definition with_dir (fs : dirs) (p : path) : dirs := fun q => if path_eqb p q then Some Dir else fs q.

Lemma path_eqb_refl p : path_eqb p p = true.
Proof. unfold path_eqb. destruct (list_eq_dec string_dec p p); congruence. Qed.
Lemma path_eqb_neq p q : p <> q -> path_eqb p q = false.
Proof. unfold path_eqb. destruct (list_eq_dec string_dec p q); congruence. Qed.
Lemma with_dir_same fs p : with_dir fs p p = Some Dir.
Proof. unfold with_dir. rewrite path_eqb_refl. auto. Qed.
Lemma with_dir_other fs p q : p <> q -> with_dir fs p q = fs q.
Proof. intros H. unfold with_dir. rewrite path_eqb_neq by auto. auto. Qed.

Lemma mkdir_new fs p : fs p = None -> fs (removelast p) = Some Dir -> mkdir fs p = inl (with_dir fs p).
Proof. intros H1 H2. unfold mkdir. rewrite H1, H2. reflexivity. Qed.

(* a directory that exists, or can be made *)
Definition can_be (fs : dirs) (p : path) : Prop := fs p = Some Dir \/ (fs p = None /\ fs (removelast p) = Some Dir).
Definition ensured (fs : dirs) (p : path) : dirs := if isdir fs p then fs else with_dir fs p.

Lemma ensured_is fs p : can_be fs p -> ensured fs p p = Some Dir.
Proof.
  unfold ensured, isdir. intros [H|[H1 H2]]; [rewrite H; auto|rewrite H1]. apply with_dir_same.
Qed.
Lemma ensured_grown fs p : can_be fs p -> grown fs (ensured fs p).
Proof.
  unfold ensured, isdir, grown. intros [H|[H1 H2]] q; [rewrite H; auto|]. rewrite H1.
  destruct (list_eq_dec string_dec p q) as [<-|N]; [right; rewrite with_dir_same; auto|left; apply with_dir_other; auto].
Qed.
Lemma ensured_only fs p q : can_be fs p -> ensured fs p q <> fs q -> q = p.
Proof.
  unfold ensured, isdir. intros [H|[H1 H2]] N; [rewrite H in N; congruence|]. rewrite H1 in N.
  destruct (list_eq_dec string_dec p q) as [<-|Hn]; auto. rewrite with_dir_other in N by auto. congruence.
Qed.

(* an idle process stays idle *)
Lemma prun_idle k fs : prun k fs {| p_todo := []; p_mk := None; p_err := None |} = (fs, {| p_todo := []; p_mk := None; p_err := None |}).
Proof. induction k; cbn [prun pstep p_err p_mk p_todo]; auto. Qed.

Lemma prun_one fs d r : can_be fs d -> exists k, (1 <= k <= 2)%nat /\
  forall n, prun (k + n) fs (pstart (d :: r)) = prun n (ensured fs d) (pstart r).
Proof.
  intros H. unfold ensured. destruct (isdir fs d) eqn:E.
  - exists 1%nat. split; [lia|]. intros n. cbn [Nat.add prun pstep pstart p_err p_mk p_todo]. rewrite E. auto.
  - exists 2%nat. split; [lia|]. intros n. cbn [Nat.add prun pstep pstart p_err p_mk p_todo]. rewrite E.
    cbn [p_err p_mk p_todo]. destruct H as [H|[H1 H2]]; [unfold isdir in E; rewrite H in E; discriminate|].
    rewrite (mkdir_new _ _ H1 H2). auto.
Qed.

Lemma prun_list l : forall fs n, (forall k, (k < length l)%nat -> can_be (fold_left ensured (firstn k l) fs) (nth k l [])) ->
  (2 * length l <= n)%nat -> prun n fs (pstart l) = (fold_left ensured l fs, pstart []).
Proof.
  induction l as [|d l IH]; intros fs n H Hn.
  - apply prun_idle.
  - destruct (prun_one fs d l) as [k [Hk E]]; [apply (H 0%nat); cbn; lia|].
    cbn [length] in Hn. replace n with (k + (n - k))%nat by lia. rewrite E. cbn [fold_left]. apply IH; [|lia].
    intros j Hj. apply (H (S j)). cbn [length]. lia.
Qed.

(* ---------- C146 ---------- *)

Lemma removelast_snoc {A} (l : list A) x : removelast (l ++ [x]) = l.
Proof. apply removelast_last. Qed.
Lemma snoc_neq {A} (l : list A) x : l ++ [x] <> l.
Proof. intros E. apply (f_equal (@List.length A)) in E. rewrite app_length in E. cbn in E. lia. Qed.

Lemma child_can fs b x : fs b = Some Dir -> fs (b ++ [x]) <> Some File -> can_be fs (b ++ [x]).
Proof.
  intros H1 H2. unfold can_be. rewrite removelast_snoc. destruct (fs (b ++ [x])) as [[|]|]; auto; congruence.
Qed.

Lemma savepath_made fs cwd home loc name : fs cwd = Some Dir -> fs home = Some Dir ->
  can_be fs (base_dir cwd home loc) -> fs (base_dir cwd home loc ++ [name]) <> Some File ->
  exists fs', get_savepath fs cwd home loc [name] = (fs', inl (base_dir cwd home loc ++ [name])) /\
    fs' (base_dir cwd home loc ++ [name]) = Some Dir /\ grown fs fs' /\
    (forall p, fs' p <> fs p -> p = base_dir cwd home loc \/ p = base_dir cwd home loc ++ [name]) /\
    get_savepath fs' cwd home loc [name] = (fs', inl (base_dir cwd home loc ++ [name])).
Proof.
  intros Hc Hh Hb Hf. set (b := base_dir cwd home loc) in *. set (fs1 := ensured fs b).
  assert (B1 : fs1 b = Some Dir) by (apply ensured_is; auto).
  assert (C1 : fs1 (b ++ [name]) = fs (b ++ [name])).
  { unfold fs1, ensured. destruct (isdir fs b); auto. apply with_dir_other. intros E. apply (snoc_neq b name). auto. }
  assert (CB : can_be fs1 (b ++ [name])) by (apply child_can; auto; rewrite C1; auto).
  set (fs2 := ensured fs1 (b ++ [name])).
  assert (D2 : fs2 (b ++ [name]) = Some Dir) by (apply ensured_is; auto).
  assert (D1 : fs2 b = Some Dir).
  { unfold fs2, ensured. destruct (isdir fs1 (b ++ [name])); auto. rewrite with_dir_other; auto. apply snoc_neq. }
  assert (G2 : grown fs fs2).
  { intros p. pose proof (ensured_grown fs b Hb p) as G1. pose proof (ensured_grown fs1 _ CB p) as G2. fold fs1 in G1. fold fs2 in G2.
    destruct G1 as [G1|[G1 G1']]; destruct G2 as [G2|[G2 G2']]; rewrite ?G1 in *; rewrite ?G2; auto.
    }
  assert (O2 : forall p, fs2 p <> fs p -> p = b \/ p = b ++ [name]).
  { intros p Hp. destruct (list_eq_dec string_dec p (b ++ [name])) as [|N]; auto. left.
    apply (ensured_only fs b); auto. fold fs1. intros E. apply Hp. rewrite <- E.
    unfold fs2, ensured. destruct (isdir fs1 (b ++ [name])); auto. apply with_dir_other. auto. }
  assert (SP : structpath cwd home loc [name] = b ++ [name]).
  { destruct loc; cbn; auto. unfold b. cbn [base_dir]. rewrite <- app_assoc. auto. }
  assert (RUN : forall g, g cwd = Some Dir -> can_be g b -> can_be (ensured g b) (b ++ [name]) ->
     get_savepath g cwd home loc [name] = (ensured (ensured g b) (b ++ [name]), inl (b ++ [name]))).
  { intros g Hg Hg1 Hg2. unfold get_savepath. rewrite SP.
    assert (W : (wanted_dirs cwd home loc [name] = [b ++ [name]] /\ b = cwd) \/ wanted_dirs cwd home loc [name] = [b; b ++ [name]]).
    { destruct loc; cbn; [left; auto|right|right; auto]. unfold b. cbn [base_dir]. rewrite <- app_assoc. auto. }
    destruct W as [[W Hl]|W]; rewrite W.
    - assert (EG : ensured g b = g) by (unfold ensured, isdir; rewrite Hl, Hg; auto). rewrite EG in *.
      rewrite prun_list; [reflexivity| |cbn; lia]. intros k Hk. destruct k as [|k]; [|cbn in Hk; lia]. exact Hg2.
    - rewrite prun_list; [reflexivity| |cbn; lia]. intros k Hk. destruct k as [|[|k]]; [exact Hg1|exact Hg2|cbn in Hk; lia]. }
  exists fs2. split; [apply RUN; auto|]. split; auto. split; auto. split; auto.
  assert (E1 : ensured fs2 b = fs2) by (unfold ensured, isdir; rewrite D1; auto).
  assert (E2 : ensured fs2 (b ++ [name]) = fs2) by (unfold ensured at 1, isdir; rewrite D2; auto).
  rewrite RUN; rewrite ?E1, ?E2; auto.
  - destruct (G2 cwd) as [->|[F _]]; congruence.
  - left. auto.
  - left. auto.
Qed.

(* ---------- C147 ---------- *)

Lemma nested_fails fs cwd home p project : fs p = None -> fs (removelast p) = None ->
  get_savepath fs cwd home (Path p) project = (fs, inr NotFound).
Proof.
  intros H1 H2. unfold get_savepath. cbn [wanted_dirs length Nat.mul Nat.add prun pstart pstep p_err p_mk p_todo].
  unfold isdir. rewrite H1. cbn [p_err p_mk p_todo]. unfold mkdir. rewrite H1, H2. reflexivity.
Qed.

Lemma project_fails fs cwd home p a b : fs p = Some Dir -> fs (p ++ [a]) = None -> fs (p ++ [a; b]) = None ->
  get_savepath fs cwd home (Path p) [a; b] = (fs, inr NotFound).
Proof.
  intros H1 H2 H3. unfold get_savepath. cbn [wanted_dirs length Nat.mul Nat.add prun pstart pstep p_err p_mk p_todo].
  unfold isdir. rewrite H1. cbn [p_err p_mk p_todo]. try unfold isdir; rewrite H3. cbn [p_err p_mk p_todo]. cbn [pstep p_err p_mk p_todo]. unfold mkdir. rewrite H3.
  replace (removelast (p ++ [a; b])) with (p ++ [a]).
  - rewrite H2. reflexivity.
  - replace (p ++ [a; b]) with ((p ++ [a]) ++ [b]) by (rewrite <- app_assoc; auto). rewrite removelast_last. auto.
Qed.

(* ---------- C148 ---------- *)

Definition calm (fs : dirs) (p : proc) : Prop :=
  p_err p = None /\ p_mk p = None /\ forall d, In d (p_todo p) -> fs d = Some Dir.

Lemma calm_step fs p : calm fs p -> exists p', pstep fs p = (fs, p') /\ calm fs p'.
Proof.
  destruct p as [l m e]. unfold calm, pstep. cbn. intros [-> [-> H]]. destruct l as [|d l].
  - eexists. split; [reflexivity|]. cbn. auto.
  - eexists. split; [reflexivity|]. cbn. unfold isdir. rewrite (H d (or_introl eq_refl)). split; auto. split; auto. intros x Hx. apply H. right. auto.
Qed.

Lemma calm_schedule ks : forall fs ps, (forall p, In p ps -> calm fs p) ->
  fst (schedule fs ps ks) = fs /\ forall p, In p (snd (schedule fs ps ks)) -> p_err p = None.
Proof.
  induction ks as [|k ks IH]; intros fs ps H.
  - cbn. split; auto. intros p Hp. apply H. auto.
  - unfold schedule. cbn [fold_left]. unfold sched_step at 2 4. cbn [fst snd].
    destruct (nth_error ps k) as [p|] eqn:E; [|apply IH; auto].
    destruct (calm_step fs p) as [p' [Ep Hp']]; [apply H; eapply nth_error_In; eauto|]. rewrite Ep. apply IH.
    intros q Hq. apply In_nth_error in Hq. destruct Hq as [j Hj]. rewrite nth_error_set in Hj by (eapply nth_error_lt; eauto).
    destruct (Nat.eqb j k); [injection Hj as <-; auto|]. apply H. eapply nth_error_In; eauto.
Qed.

Lemma existing_no_race fs cwd home loc project n ks : (forall d, In d (wanted_dirs cwd home loc project) -> fs d = Some Dir) ->
  fst (schedule fs (repeat (pstart (wanted_dirs cwd home loc project)) n) ks) = fs /\
  forall p, In p (snd (schedule fs (repeat (pstart (wanted_dirs cwd home loc project)) n) ks)) -> p_err p = None.
Proof.
  intros H. apply calm_schedule. intros p Hp. apply repeat_spec in Hp. subst p. repeat split; auto.
Qed.

Lemma race fs cwd home name : fs cwd = Some Dir -> fs (cwd ++ [name]) = None ->
  exists ks p, In p (snd (schedule fs (repeat (pstart (wanted_dirs cwd home Current [name])) 2) ks)) /\ p_err p = Some FileExists.
Proof.
  intros H1 H2. exists [0; 1; 0; 1]%nat. eexists. split; [|shelve].
  assert (D : isdir fs (cwd ++ [name]) = false) by (unfold isdir; rewrite H2; auto).
  assert (K : mkdir fs (cwd ++ [name]) = inl (with_dir fs (cwd ++ [name]))) by (apply mkdir_new; rewrite ?removelast_last; auto).
  assert (K2 : mkdir (with_dir fs (cwd ++ [name])) (cwd ++ [name]) = inr FileExists) by (unfold mkdir; rewrite with_dir_same; auto).
  unfold schedule. cbn [fold_left repeat wanted_dirs]. unfold sched_step. cbn [fst snd nth_error pstep pstart p_err p_mk p_todo set_nth].
  rewrite D. cbn [fst snd nth_error pstep pstart p_err p_mk p_todo set_nth].
  rewrite K. cbn [fst snd nth_error pstep pstart p_err p_mk p_todo set_nth].
  rewrite K2. cbn [fst snd nth_error pstep pstart p_err p_mk p_todo set_nth]. right. left. reflexivity.
  Unshelve. reflexivity.
Qed.
