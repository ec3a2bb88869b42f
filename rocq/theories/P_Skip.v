(** C22, continued: what a run left out did not apply. *)
From Verif Require Import Base Interp_Model Cond_Model Types_Model Path_Model Valid_Spec Run_Model Run_Logic Run_Spec Run_Inv Run_Proof Run_Facts
  Run_Drive P_Run.

(** The systems an item is for (none: all of them) and its condition (empty: none), as
    written in the Babfile, for each kind of item. *)
Inductive only_on : run_item -> list str -> Prop :=
| on_cmd c : only_on (RCmd c) (c_platforms c) | on_task r : only_on (RTask r) (r_platforms r) | on_log l : only_on (RLog l) (l_platforms l)
| on_prompt p : only_on (RPrompt p) (p_platforms p) | on_par o items : only_on (RPar o items) (q_platforms o).
Inductive only_if : run_item -> str -> Prop :=
| if_cmd c : only_if (RCmd c) (c_when c) | if_task r : only_if (RTask r) (r_when r) | if_log l : only_if (RLog l) (l_when l)
| if_prompt p : only_if (RPrompt p) (p_when p) | if_par o items : only_if (RPar o items) (q_when o).
Lemma on_is it ps : only_on it ps -> item_platforms it = ps.
Proof. intros H. destruct H; reflexivity. Qed.
Lemma if_is it w : only_if it w -> item_when it = w.
Proof. intros H. destruct H; reflexivity. Qed.
Lemma on_has it : only_on it (item_platforms it).
Proof. destruct it; constructor. Qed.
Lemma if_has it : only_if it (item_when it).
Proof. destruct it; constructor. Qed.
(** An item is not for this system, or its condition was false when it was its turn;
    [past] is what had happened before. *)
Definition not_for (k : config) (past : hist) (t : task) (i : nat) (it : run_item) : Prop :=
  (exists ps, only_on it ps /\ ps <> [] /\ k_os k ∉ ps) \/
  (exists w, only_if it w /\ w <> [] /\ exists vars, sees k past t [i] vars /\ evaluate (k_getenv k) vars w = Ok false).
(** The condition of a task was false. *)
Definition not_wanted (k : config) (past : hist) (t : task) : Prop :=
  t_when t <> [] /\ exists globals, globals_once k past globals /\ evaluate (k_getenv k) globals (t_when t) = Ok false.

Section C22.
  Context (k : config) (tasks : taskmap) (root : str) (Hkeyed : keyed tasks).

  (** Nothing is left out without a reason, in any run. *)
  Theorem C22_item_left_out h p T pa w past : run_of k tasks root h p -> happened h (OSkip T pa w) past ->
    exists t i it, pa = [i] /\ tasks !! T = Some t /\ t_run t !! i = Some it /\ not_for k past t i it.
  Proof.
    intros Hr Hh. pose proof (happened_good k tasks root Hkeyed _ _ _ _ Hr Hh) as Hg. apply good_tail in Hg as (_ & _ & [_ HB]).
    destruct HB as (t & i & it & -> & Ht & Hit & _ & _ & _ & _ & Hw). exists t, i, it. split; [reflexivity|]. split; [exact Ht|]. split; [exact Hit|].
    destruct w; [left|right; exists (item_when it); split; [apply if_has|exact Hw]]. exists (item_platforms it). split; [apply on_has|].
    unfold matches_platform in Hw. destruct (item_platforms it) as [|o os]; [discriminate Hw|]. split; [discriminate|]. apply bool_decide_eq_false in Hw. exact Hw.
  Qed.
  (** And what is done applied, whichever kind of item it is. *)
  Theorem C30_of_every_kind_partial h p ev T t i q it ps w past : run_of k tasks root h p -> happened h ev past -> action ev = Some (T, i :: q) ->
    tasks !! T = Some t -> t_run t !! i = Some it -> only_on it ps -> only_if it w ->
    (ps = [] \/ k_os k ∈ ps) /\ (w = [] \/ exists vars, sees k past t [i] vars /\ evaluate (k_getenv k) vars w = Ok true).
  Proof.
    intros Hr Hh Ha Ht Hit Hps Hw. rewrite <- (on_is _ _ Hps), <- (if_is _ _ Hw). exact (C30_excluded_items_never_run_partial k tasks root Hkeyed h p ev T t i q it past Hr Hh Ha Ht Hit).
  Qed.
  Theorem C22_task_left_out h p T past : run_of k tasks root h p -> happened h (OSkipTask T) past ->
    exists t, tasks !! T = Some t /\ not_wanted k past t.
  Proof.
    intros Hr Hh. pose proof (happened_good k tasks root Hkeyed _ _ _ _ Hr Hh) as Hg. apply good_tail in Hg as (_ & _ & [_ HB]).
    destruct HB as (_ & t & gl & Ht & Hne & Hgl & Hev). exists t. split; [exact Ht|]. split; [exact Hne|]. exists gl. auto.
  Qed.

  (** So a run that succeeds and was not cancelled did all that applied: the tasks asked
      for, but for those that were not wanted, with their dependencies, and all of their
      items but for those that are not for this system or whose condition was false. *)
  Theorem C22_all_that_applied_partial h : run_of k tasks root h (Ret None) -> (forall i, OCancel i ∉ h) ->
    ODone root ∈ h /\ forall T, ODone T ∈ h -> exists t, tasks !! T = Some t /\
      ((exists past, past `suffix_of` h /\ not_wanted k past t) \/
       ((forall d, d ∈ t_deps t -> ODone d ∈ h) /\
        forall i it, t_run t !! i = Some it -> (exists past, past `suffix_of` h /\ not_for k past t i it) \/ through k h T i it)).
  Proof.
    intros Hr Hc. destruct (C22_success_ran_everything_partial k tasks root Hkeyed h Hr Hc) as (H1 & _ & H2). split; [exact H1|].
    assert (Hat : forall ev, ev ∈ h -> exists past, happened h ev past).
    { intros ev Hin. destruct (good_in _ _ _ _ (run_good k tasks root Hkeyed _ _ Hr) Hin) as (h0 & Hs & _). exists h0. exact Hs. }
    assert (Hsuf : forall ev past, happened h ev past -> past `suffix_of` h).
    { intros ev past Hh. etransitivity; [|exact Hh]. apply suffix_cons_r. reflexivity. }
    intros T Hd. destruct (H2 T Hd) as (t & Ht & H). exists t. split; [exact Ht|]. destruct H as [H|[Hdeps Hits]].
    - left. destruct (Hat _ H) as (past & Hh). destruct (C22_task_left_out _ _ _ _ Hr Hh) as (t' & Ht' & Hn). rewrite Ht in Ht'. injection Ht' as <-.
      exists past. split; [eapply Hsuf; exact Hh|exact Hn].
    - right. split; [exact Hdeps|]. intros i it Hit. destruct (Hits i it Hit) as [[w Hin]|H]; [left|right; exact H].
      destruct (Hat _ Hin) as (past & Hh). destruct (C22_item_left_out _ _ _ _ _ _ Hr Hh) as (t' & i' & it' & [= <-] & Ht' & Hit' & Hn).
      rewrite Ht in Ht'. injection Ht' as <-. rewrite Hit in Hit'. injection Hit' as <-. exists past. split; [eapply Hsuf; exact Hh|exact Hn].
  Qed.
End C22.
Print Assumptions C22_item_left_out. Print Assumptions C22_task_left_out. Print Assumptions C22_all_that_applied_partial. Print Assumptions C30_of_every_kind_partial.

(** ** Concrete cases *)
(** A task with an item for another system, one whose condition is false and one that
    runs, and a dependency that is not wanted. *)
Definition off (s : string) : run_item := RCmd (CmdRun 1 (lit s) [] None None None [] (lit "false")).
Definition unwanted (t : task) : task :=
  Task (t_name t) (t_line t) (t_deps_line t) (t_source t) (t_desc t) (t_alias t) (t_aliases t) (t_vars t) (t_env t) (t_silent t) (t_output t) (t_dir t) (lit "false") (t_deps t) (t_run t).
Definition picky := ran (conf false) (tm [unwanted (mk "extra" None [] [cmd "x"]); mk "all" None ["extra"%string] [win "a"; off "b"; cmd "c"]]) (lit "all") [Go [] 60 fine].
Example C22_left_out_met :
  result picky.2 = Some None /\
  has (fun ev => match ev with OSkip _ [0] ByPlatform => true | _ => false end) picky.1 = true /\
  has (fun ev => match ev with OSkip _ [1] ByWhen => true | _ => false end) picky.1 = true /\
  has (fun ev => match ev with OSkipTask T => bool_decide (T = lit "extra") | _ => false end) picky.1 = true /\ has (starts "x") picky.1 = false /\
  has (starts "a") picky.1 = false /\ has (starts "b") picky.1 = false /\ has (starts "c") picky.1 = true /\
  has (fun ev => match ev with OCancel _ => true | _ => false end) picky.1 = false.
Proof. vm_compute. auto 15. Qed.
(** The items of that run that were left out have a system and a condition, the command
    that ran has neither. *)
Example C30_of_every_kind_met : only_on (cmd "c") [] /\ only_if (cmd "c") [] /\ has (starts "c") picky.1 = true.
Proof. split; [apply (on_has (cmd "c"))|]. split; [apply (if_has (cmd "c"))|vm_compute; reflexivity]. Qed.
