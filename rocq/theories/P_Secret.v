(** C90: an answer reaches only what refers to it. *)
From Verif Require Import Base Types_Model Interp_Model Interp_Spec Interp_Proof Run_Model Run_Spec Run_Proof Run_Drive Sim_Proof Secret_Spec Secret_Proof P_Run P_Dry.

Section Theorems.
  Context (k : config) (tasks : taskmap) (root : str) (V : gset str) (other : str -> list nat -> str -> str).
  Context (Hkeyed : keyed tasks) (Hconf : confined k tasks V).

  Lemma unchanged : changed k k V.
  Proof. constructor; try reflexivity. intros x. left. reflexivity. Qed.

  (** Give other answers to the questions for the secrets: the run can go on as before, step
      by step, to the same end, and differs only in the secrets and in what the items that
      refer to them do. *)
  Theorem C90_same_but_for_secret h r : run_of k tasks root h (Ret r) ->
    exists h' r', run_of k tasks root h' (Ret r') /\ Forall2 (alike k k tasks V ∅ other) h h' /\ out_alike k tasks V r r'.
  Proof. intros Hr. exact (secret_run k tasks V ∅ other k unchanged Hkeyed Hconf (agree_refl V ∅ _) (empty_subseteq V) (or_introl eq_refl) root h r Hr). Qed.
  Theorem C90_same_so_far h p : run_of k tasks root h p ->
    exists h' p', run_of k tasks root h' p' /\ Forall2 (alike k k tasks V ∅ other) h h'.
  Proof. intros Hr. exact (secret_prefix k tasks V ∅ other k unchanged Hkeyed Hconf (agree_refl V ∅ _) (empty_subseteq V) (or_introl eq_refl) root h p Hr). Qed.

  (** So a command that does not refer to a secret gets the same text, environment and
      directory at the same point of the run, and is answered in the same way; the same
      for the lines shown. *)
  Theorem C90_others_untouched h r : run_of k tasks root h (Ret r) ->
    exists h' r', run_of k tasks root h' (Ret r') /\ length h' = length h /\
      (forall i T pa q a, h !! i = Some (OPrompt T pa q (Some a)) -> p_prompt q ∈ V -> exists q', h' !! i = Some (OPrompt T pa q' (Some (other T pa a)))) /\
      (forall i x b, h !! i = Some (OStart x b) -> ~ speaks k tasks V (x_task x) (x_path x) -> h' !! i = Some (OStart x b)) /\
      (forall i T pa c d, h !! i = Some (OEcho T pa c d) -> ~ speaks k tasks V T pa -> h' !! i = Some (OEcho T pa c d)) /\
      (forall i T pa c lv d, h !! i = Some (OLog T pa c lv d) -> ~ speaks k tasks V T pa -> h' !! i = Some (OLog T pa c lv d)) /\
      (forall i T pa ok, h !! i = Some (OEnd T pa ok) -> h' !! i = Some (OEnd T pa ok)) /\
      (forall i T pa w, h !! i = Some (OSkip T pa w) -> h' !! i = Some (OSkip T pa w)) /\
      (forall i n, h !! i = Some (ODone n) -> h' !! i = Some (ODone n)).
  Proof.
    intros Hr. destruct (C90_same_but_for_secret h r Hr) as (h' & r' & Hr' & Hal & _). exists h', r'. split; [exact Hr'|].
    split; [symmetry; exact (Forall2_length _ _ _ Hal)|].
    assert (G : forall i ev, h !! i = Some ev -> exists ev', h' !! i = Some ev' /\ alike k k tasks V ∅ other ev ev') by (intros i ev Hi; exact (Forall2_lookup_l _ _ _ i ev Hal Hi)).
    repeat split.
    - intros i T pa q a Hi HV. destruct (G i _ Hi) as (ev' & Hi' & Ha). inversion Ha; subst; [|eauto|].
      + match goal with H : ~ open_to_change _ _ |- _ => contradiction (H HV) end.
      + match goal with H : _ ∉ V |- _ => contradiction (H HV) end.
    - intros i x b Hi Hs. destruct (G i _ Hi) as (ev' & Hi' & Ha). inversion Ha; subst; [exact Hi'|exact Hi'|contradiction Hs; assumption].
    - intros i T pa c d Hi Hs. destruct (G i _ Hi) as (ev' & Hi' & Ha). inversion Ha; subst; [exact Hi'|contradiction Hs; assumption].
    - intros i T pa c lv d Hi Hs. destruct (G i _ Hi) as (ev' & Hi' & Ha). inversion Ha; subst; [exact Hi'|contradiction Hs; assumption].
    - intros i T pa ok Hi. destruct (G i _ Hi) as (ev' & Hi' & Ha). inversion Ha; subst; exact Hi'.
    - intros i T pa w Hi. destruct (G i _ Hi) as (ev' & Hi' & Ha). inversion Ha; subst; exact Hi'.
    - intros i n Hi. destruct (G i _ Hi) as (ev' & Hi' & Ha). inversion Ha; subst; exact Hi'.
  Qed.

  (** If nothing refers to the secrets the error is the same too. *)
  Theorem C90_same_error h r : (forall T pa, ~ speaks k tasks V T pa) -> run_of k tasks root h (Ret r) ->
    exists h', run_of k tasks root h' (Ret r) /\ Forall2 (alike k k tasks V ∅ other) h h'.
  Proof.
    intros Hs Hr. destruct (C90_same_but_for_secret h r Hr) as (h' & r' & Hr' & Hal & Ho). exists h'.
    assert (E : r' = r); [|rewrite <- E; split; assumption].
    assert (G : forall e e', err_alike k tasks V e e' -> e' = e).
    { induction 1; try reflexivity; try (subst; reflexivity); exfalso; eapply Hs; eassumption. }
    destruct Ho as [|e e' He]; [reflexivity|]. rewrite (G e e' He). reflexivity.
  Qed.
End Theorems.
Print Assumptions C90_same_but_for_secret. Print Assumptions C90_same_so_far. Print Assumptions C90_others_untouched. Print Assumptions C90_same_error.

(** ** A case *)
(** What the examples have to check, by computation. *)
Definition usesb (V : gset str) (s : str) : bool := existsb (fun n => bool_decide (n ∈ V)) (refs s).
Lemma usesb_false V s : usesb V s = false -> ~ uses V s.
Proof.
  intros H Hu. apply uses_refs in Hu as (n & Hn & HV). enough (usesb V s = true) by congruence.
  unfold usesb. apply existsb_exists. exists n. split; [apply elem_of_list_In; exact Hn|apply bool_decide_eq_true; exact HV].
Qed.
Lemma usesb_true V s : usesb V s = true -> uses V s.
Proof.
  intros H. apply uses_refs. unfold usesb in H. apply existsb_exists in H as (n & Hn & HV).
  exists n. split; [apply elem_of_list_In; exact Hn|apply bool_decide_eq_true in HV; exact HV].
Qed.
Definition task_confinedb (V : gset str) (t : task) : bool :=
  forallb (fun xs => negb (usesb V xs.2) || bool_decide (xs.1 ∈ V)) (map_to_list (smap_get (t_vars t))) &&
  negb (usesb V (t_when t)) && forallb (fun it => negb (usesb V (item_when it))) (t_run t) &&
  forallb (fun xs => negb (usesb V xs.2)) (map_to_list (smap_get (t_env t))).
Definition confinedb (k : config) (tasks : taskmap) (V : gset str) : bool :=
  forallb (fun nt => task_confinedb V nt.2) (map_to_list tasks) && forallb (fun xs => negb (usesb V xs.2)) (map_to_list (smap_get (k_env k))).
Lemma confined_by k tasks V : confinedb k tasks V = true -> confined k tasks V.
Proof.
  intros H. unfold confinedb in H. apply andb_prop in H as [H Hg].
  assert (Ht : forall T t, tasks !! T = Some t -> task_confinedb V t = true).
  { intros T t Ht. apply elem_of_map_to_list in Ht. rewrite forallb_forall in H. apply (H (T, t)). apply elem_of_list_In. exact Ht. }
  assert (Hn : forall s, negb (usesb V s) = true -> ~ uses V s).
  { intros s Hs. apply usesb_false. destruct (usesb V s); [discriminate Hs|reflexivity]. }
  constructor.
  - intros T t vs x s HT Hvs Hx Hu. specialize (Ht T t HT). unfold task_confinedb in Ht. rewrite Hvs in Ht.
    repeat apply andb_prop in Ht as [Ht ?]. rewrite forallb_forall in Ht. specialize (Ht (x, s)). rewrite <- elem_of_list_In, elem_of_map_to_list in Ht.
    specialize (Ht Hx). apply orb_prop in Ht as [Ht|Ht]; [contradiction (Hn s Ht Hu)|]. apply bool_decide_eq_true in Ht. exact Ht.
  - intros T t HT. specialize (Ht T t HT). unfold task_confinedb in Ht. repeat apply andb_prop in Ht as [Ht ?]. apply Hn. assumption.
  - intros T t i it HT Hi. specialize (Ht T t HT). unfold task_confinedb in Ht. apply andb_prop in Ht as [Ht _]. apply andb_prop in Ht as [_ Ht].
    apply Hn. rewrite forallb_forall in Ht. apply Ht. apply elem_of_list_In. eapply elem_of_list_lookup_2. exact Hi.
  - intros T t x s HT Hx. specialize (Ht T t HT). unfold task_confinedb in Ht. apply andb_prop in Ht as [_ Ht].
    rewrite forallb_forall in Ht. apply Hn. apply (Ht (x, s)). apply elem_of_list_In, elem_of_map_to_list. exact Hx.
  - intros x s Hx. rewrite forallb_forall in Hg. apply Hn. apply (Hg (x, s)). apply elem_of_list_In, elem_of_map_to_list. exact Hx.
Qed.

(** A release asks for a token, makes a header of it for one command, and tests in a block. *)
Definition ask_for (v type : string) : run_item := RPrompt (PromptRun 1 (lit v) (lit type) (lit "Value?") [] [] [] [] [] [] None None None []).
Definition release : taskmap := tm
  [mk "release" (Some {[lit "auth" := lit "Bearer ${{ token }}"; lit "token" := lit "none"]}) ["test"%string]
     [ask_for "token" "password"; note "publishing"; RCmd (CmdRun 1 (lit "publish") [] (Some {[lit "TOKEN" := lit "${{ token }}"]}) None None [] []);
      par 0 [cmd "lint"; cmd "curl -H '${{ auth }}' /hook"]];
   mk "test" None [] [cmd "go test"]].
Definition tokens : gset str := {[lit "token"; lit "auth"]}.
Definition release_moves (a : str) : list act :=
  Go [] 200 (says a) :: flat_map (fun j => [Do [] (MSlot j); Go [j] 100 fine; Do [] (MReturn j); Do [] (MFree j)]) [0; 1] ++ [Do [] MJoin; Go [] 60 fine].
Definition release_run (a : string) := ran (conf false) release (lit "release") (release_moves (lit a)).
Definition starts (h : hist) : list (str * list str) := omap (fun ev => match ev with OStart x _ => Some (x_cmd x, x_environ x) | _ => None end) (reverse h).
Example C90_met : keyed release /\ confined (conf false) release tokens /\
  run_of (conf false) release (lit "release") (release_run "s3cret").1 (Ret None) /\
  run_of (conf false) release (lit "release") (release_run "hunter2").1 (Ret None) /\
  speaks (conf false) release tokens (lit "release") [2] /\ ~ speaks (conf false) release tokens (lit "release") [3; 0] /\
  map fst (starts (release_run "s3cret").1) = [lit "go test"; lit "publish"; lit "lint"; lit "curl -H 'Bearer none' /hook"] /\
  nth_error (map snd (starts (release_run "s3cret").1)) 1 <> nth_error (map snd (starts (release_run "hunter2").1)) 1 /\
  nth_error (map snd (starts (release_run "s3cret").1)) 2 = nth_error (map snd (starts (release_run "hunter2").1)) 2.
Proof.
  split; [apply keyed_by; vm_compute; reflexivity|]. split; [apply confined_by; vm_compute; reflexivity|].
  split; [apply finished; vm_compute; reflexivity|]. split; [apply finished; vm_compute; reflexivity|]. split; [|split; [|split; [vm_compute; reflexivity|split; [vm_compute; discriminate|vm_compute; reflexivity]]]].
  - destruct (release !! lit "release") as [t|] eqn:Et; [|vm_compute in Et; discriminate Et]. eexists t, _. split; [exact Et|].
    vm_compute in Et. injection Et as <-. split; [reflexivity|]. right. left. exists (lit "TOKEN"), (lit "${{ token }}"). split; [reflexivity|]. apply usesb_true. vm_compute. reflexivity.
  - intros (t & it & Ht & Hat & Hs). vm_compute in Ht. injection Ht as <-. destruct Hat as (o & items & Hi & Hj). cbn in Hi. injection Hi as <- <-. cbn in Hj. injection Hj as <-.
    destruct Hs as [Hs|[(x & s & Hx & _)|[Hs|(x & s & [Hx|Hx] & _)]]]; try (vm_compute in Hx; discriminate Hx).
    + revert Hs. apply usesb_false. vm_compute. reflexivity.
    + revert Hs. apply usesb_false. vm_compute. reflexivity.
Qed.

(** ** What does not hold *)
(** That a question is of type password hides the answer only while it is typed: a command
    that refers to it is shown with it, unless it is silent. *)
Definition login : taskmap := tm [mk "login" None [] [ask_for "pw" "password"; cmd "login -p ${{ pw }}"]].
Definition login_run := ran (conf false) login (lit "login") [Go [] 60 (says (lit "s3cret"))].
Theorem C90_password_shown_refuted : exists k tasks root h T pa q a pa' line d, keyed tasks /\ run_of k tasks root h (Ret None) /\
  OPrompt T pa q (Some a) ∈ h /\ p_type q = lit "password" /\ a = lit "s3cret" /\ OEcho T pa' line d ∈ h /\ line = lit "login -p s3cret".
Proof.
  destruct (has_in (fun ev => match ev with OPrompt T _ q (Some a) => bool_decide (T = lit "login" /\ p_type q = lit "password" /\ a = lit "s3cret") | _ => false end) login_run.1) as (ev & Hin & He); [vm_compute; reflexivity|].
  destruct ev as [| | | | | | | | | | | | | | | |T pa q [a|]| | | | | | | | | | | |]; try discriminate He. apply bool_decide_eq_true in He as (H0 & H1 & H2). subst T.
  destruct (has_in (fun ev => match ev with OEcho T _ c _ => bool_decide (T = lit "login" /\ c = lit "login -p s3cret") | _ => false end) login_run.1) as (ev & Hin' & He); [vm_compute; reflexivity|].
  destruct ev as [| | | | | | | | | | | | |T pa' c d| | | | | | | | | | | | | | |]; try discriminate He. apply bool_decide_eq_true in He as (H0 & H3). subst T.
  exists (conf false), login, (lit "login"), login_run.1, (lit "login"), pa, q, a, pa', c, d.
  split; [apply keyed_by; vm_compute; reflexivity|]. split; [apply finished; vm_compute; reflexivity|]. auto 6.
Qed.
Print Assumptions C90_password_shown_refuted.

(** No text of the Babfile refers to a secret but where it is asked for, and still it reaches
    a command: the environment of a task is expanded when the task starts, and again for each of its
    commands, so that an answer which looks like a reference is taken for one. *)
Definition twice : taskmap := tm
  [Task (lit "build") 1 1 (lit "/w/Babfile") [] [] [] None (Some {[lit "NAME" := lit "${{ name }}"]}) None None [] [] [lit "ask"] [cmd "make"];
   mk "ask" None [] [ask_for "pw" "password"; ask_for "name" "input"]].
Definition twice_run := ran (conf false) twice (lit "build")
  [Go [] 8 (says (lit "s3cret")); Go [] 60 (says (lit "${{ pw }}"))].
Theorem C90_expanded_twice_refuted : exists k tasks root V h, keyed tasks /\ confined k tasks V /\ run_of k tasks root h (Ret None) /\
  (forall T t pa c, tasks !! T = Some t -> item_at t pa (RCmd c) -> ~ uses V (c_cmd c) /\ smap_get (c_env c) = ∅ /\ ~ uses V (dir_given k t c)) /\
  exists T pa q x b, OPrompt T pa q (Some (lit "s3cret")) ∈ h /\ p_prompt q ∈ V /\ OStart x b ∈ h /\ lit "NAME=s3cret" ∈ x_environ x.
Proof.
  exists (conf false), twice, (lit "build"), {[lit "pw"]}, twice_run.1.
  split; [apply keyed_by; vm_compute; reflexivity|]. split; [apply confined_by; vm_compute; reflexivity|]. split; [apply finished; vm_compute; reflexivity|]. split.
  - assert (Hall : map_Forall (fun _ t => forall pa c, item_at t pa (RCmd c) -> ~ uses {[lit "pw"]} (c_cmd c) /\ smap_get (c_env c) = ∅ /\ ~ uses {[lit "pw"]} (dir_given (conf false) t c)) twice).
    { unfold twice, tm. cbn [map list_to_map foldr fst snd]. apply map_Forall_insert_2; [|apply map_Forall_insert_2; [|apply map_Forall_empty]].
      - intros pa c Hat. destruct pa as [|i [|j [|]]]; try contradiction Hat.
        + destruct i as [|i]; [|discriminate Hat]. injection Hat as <-. split; [apply usesb_false; vm_compute; reflexivity|]. split; [reflexivity|apply usesb_false; vm_compute; reflexivity].
        + destruct Hat as (o & items & H & _). destruct i; discriminate H.
      - intros pa c Hat. destruct pa as [|i [|j [|]]]; try contradiction Hat.
        + destruct i as [|[|i]]; discriminate Hat.
        + destruct Hat as (o & items & H & _). destruct i as [|[|i]]; discriminate H. }
    intros T t pa c Ht. exact (Hall T t Ht pa c).
  - destruct (has_in (fun ev => match ev with OPrompt _ _ q (Some a) => bool_decide (p_prompt q = lit "pw" /\ a = lit "s3cret") | _ => false end) twice_run.1) as (ev & Hin & He); [vm_compute; reflexivity|].
    destruct ev as [| | | | | | | | | | | | | | | |T pa q [a|]| | | | | | | | | | | |]; try discriminate He. apply bool_decide_eq_true in He as [H1 H2]. subst a.
    destruct (has_in (fun ev => match ev with OStart x _ => bool_decide (lit "NAME=s3cret" ∈ x_environ x) | _ => false end) twice_run.1) as (ev & Hin' & He); [vm_compute; reflexivity|].
    destruct ev as [| | | | | | | | | | | | | |x b| | | | | | | | | | | | | |]; try discriminate He. apply bool_decide_eq_true in He.
    exists T, pa, q, x, b. split; [exact Hin|]. split; [rewrite H1; apply elem_of_singleton; reflexivity|]. split; assumption.
Qed.
Print Assumptions C90_expanded_twice_refuted.
