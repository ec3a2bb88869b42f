(** C89: display settings change what is displayed and nothing else. *)
From Verif Require Import Base Types_Model Run_Model Run_Spec Run_Proof Run_Drive Look_Spec Sim_Proof Look_Proof P_Run P_Run_Cmd P_Dry.

Section Theorems.
  Context (k k' : config) (tasks tasks' : taskmap) (root : str).
  (** The two differ in display only. *)
  Context (Hk : plain_config k = plain_config k') (Ht : plain_tasks tasks = plain_tasks tasks').

  (** Whatever a run does, in whatever order and with whatever end, a run with the other
      display can do: the same commands, with the same environments in the same
      directories, the same questions with the same answers, the same log lines, the same
      things skipped and completed, the same interrupts. It ends with the same error, or with
      none as the other; only the line an error points to may be another. *)
  Theorem C89_same_happenings h r : run_of k tasks root h (Ret r) -> Forall watched h ->
    exists h' r', run_of k' tasks' root h' (Ret r') /\ placeless <$> r' = placeless <$> r /\ happenings h' = happenings h.
  Proof. intros Hr Hw. exact (look_run k k' tasks tasks' Hk Ht root h r Hr Hw). Qed.
  (** The same while the run is going on. *)
  Theorem C89_same_so_far h p : run_of k tasks root h p -> Forall watched h ->
    exists h' p', run_of k' tasks' root h' p' /\ happenings h' = happenings h.
  Proof. intros Hr Hw. exact (look_prefix k k' tasks tasks' Hk Ht root h p Hr Hw). Qed.
End Theorems.
Print Assumptions C89_same_happenings. Print Assumptions C89_same_so_far.

(** What the statements compare, for the events that matter to a user. *)
Lemma happenings_in h ev : ev ∈ happenings h <-> exists ev0, ev0 ∈ h /\ shown ev0 = false /\ core ev0 = ev.
Proof.
  unfold happenings. rewrite elem_of_list_In, in_map_iff. split.
  - intros (ev0 & Hc & Hin). apply List.filter_In in Hin as [Hin Hs]. exists ev0. split; [apply elem_of_list_In; exact Hin|]. split; [destruct (shown ev0); [discriminate Hs|reflexivity]|exact Hc].
  - intros (ev0 & Hin & Hs & Hc). exists ev0. split; [exact Hc|]. apply List.filter_In. split; [apply elem_of_list_In; exact Hin|]. rewrite Hs. reflexivity.
Qed.
(** So a command is started by the one run if it is by the other: with the same text, in
    the same directory, with the same environment apart from the hints about colour. *)
Theorem C89_commands k k' tasks tasks' root h r x b : plain_config k = plain_config k' -> plain_tasks tasks = plain_tasks tasks' ->
  run_of k tasks root h (Ret r) -> Forall watched h -> OStart x b ∈ h ->
  exists h' r' x', run_of k' tasks' root h' (Ret r') /\ placeless <$> r' = placeless <$> r /\ OStart x' b ∈ h' /\ x_task x' = x_task x /\ x_path x' = x_path x /\
    x_cmd x' = x_cmd x /\ x_dir x' = x_dir x /\
    forall s, colour_hint s = false -> s ∈ x_environ x' <-> s ∈ x_environ x.
Proof.
  intros Hk Ht Hr Hw Hin. destruct (C89_same_happenings k k' tasks tasks' root Hk Ht h r Hr Hw) as (h' & r' & Hr' & Hrr & Hh).
  assert (Hc : core (OStart x b) ∈ happenings h') by (rewrite Hh; apply happenings_in; exists (OStart x b); split; [exact Hin|split; reflexivity]).
  apply happenings_in in Hc as (ev & Hev & _ & Hc). destruct ev as [| | | | | | | | | | | | | |x' b'| | | | |? ? []| | | | | | | | |]; try discriminate Hc.
  cbn in Hc. injection Hc as H1 H2 H3 H4 H5 H6. subst b'. exists h', r', x'. split; [exact Hr'|]. split; [exact Hrr|]. split; [exact Hev|].
  split; [exact H1|]. split; [exact H2|]. split; [exact H3|]. split; [exact H5|].
  intros s Hs. assert (E : forall l, In s (List.filter (fun s => negb (colour_hint s)) l) <-> s ∈ l).
  { intros l. rewrite List.filter_In, Hs, elem_of_list_In. cbn. tauto. }
  rewrite <- (E (x_environ x)), <- H4. rewrite E. reflexivity.
Qed.
Print Assumptions C89_commands.

(** ** A case *)
(** Tests in parallel. Once all is shown, in a TUI; once as little as possible. *)
Definition test_cmd (s : string) (silent output : option bool) : run_item := RCmd (CmdRun 1 (lit s) [] (Some {[lit "A" := lit "1"]}) silent output [] []).
Definition loud_tests : taskmap := tm
  [Task (lit "all") 3 4 (lit "/w/Babfile") (lit "Runs the tests") [] [] None None None None [] [] [lit "gen"]
     [RPar (ParOpts 5 [lit "unit tests"] (lit "grouped") 1 None None None [] []) [test_cmd "go test" None None; test_cmd "npm test" None None]];
   Task (lit "gen") 9 9 (lit "/w/Babfile") [] [] [] None None None None [] [] [] [test_cmd "go generate" None None]].
Definition quiet_tests : taskmap := tm
  [Task (lit "all") 1 1 (lit "/w/Babfile") [] (lit "a") [] None None (Some true) None [] [] [lit "gen"]
     [RPar (ParOpts 2 [] (lit "interleaved") 1 (Some false) (Some true) (Some false) [] []) [test_cmd "go test" None (Some true); test_cmd "npm test" (Some false) None]];
   Task (lit "gen") 4 4 (lit "/w/Babfile") [] [] [] None None (Some true) (Some false) [] [] [] [test_cmd "go generate" None None]].
Definition on_terminal : config := Config false ∅ None None None [] (fun _ => []) [lit "HOME=/h"] (lit "linux") true.
Definition in_ci : config := Config false ∅ None (Some true) None [] (fun _ => []) [lit "HOME=/h"] (lit "linux") false.
Definition tests_moves : list act := Go [] 200 fine ::
  flat_map (fun j => [Do [] (MSlot j); Go [j] 200 fine; Do [] (MReturn j); Do [] (MFree j)]) [1; 0] ++ [Do [] MJoin; Go [] 60 fine].
Definition loud_run := ran on_terminal loud_tests (lit "all") tests_moves.
Definition quiet_run := ran in_ci quiet_tests (lit "all") tests_moves.
Definition lines_shown (h : hist) : nat := length (List.filter shown h).
Lemma watched_by h : has (fun ev => match ev with OCancel (S _) | OTui false => true | _ => false end) h = false -> Forall watched h.
Proof.
  intros H. apply Forall_forall. intros ev Hin. pose proof (has_not _ _ H _ Hin) as E. destruct ev as [| | | | | | | | | | | | | | | | | | | | |[]| | | | | | |[]]; cbn; try exact I; try reflexivity; discriminate E.
Qed.
Lemma plain_tm l : plain_tasks (tm l) = tm (map plain_task l).
Proof.
  unfold plain_tasks, tm. rewrite <- list_to_map_fmap. f_equal. rewrite map_map. change (list_fmap _ _ ?f ?l) with (map f l).
  unfold fmap, list_fmap. rewrite <- list_fmap_compose. reflexivity.
Qed.
Lemma plain_same l l' : map plain_task l = map plain_task l' -> plain_tasks (tm l) = plain_tasks (tm l').
Proof. intros H. rewrite !plain_tm, H. reflexivity. Qed.
Example C89_met : plain_config on_terminal = plain_config in_ci /\ plain_tasks loud_tests = plain_tasks quiet_tests /\
  run_of on_terminal loud_tests (lit "all") loud_run.1 (Ret None) /\ run_of in_ci quiet_tests (lit "all") quiet_run.1 (Ret None) /\
  Forall watched loud_run.1 /\ Forall watched quiet_run.1 /\ happenings loud_run.1 = happenings quiet_run.1 /\
  length (happenings loud_run.1) = 34 /\ lines_shown loud_run.1 = 8 /\ lines_shown quiet_run.1 = 1.
Proof.
  split; [reflexivity|]. split; [apply plain_same; reflexivity|]. split; [apply finished; vm_compute; reflexivity|]. split; [apply finished; vm_compute; reflexivity|].
  split; [apply watched_by; vm_compute; reflexivity|]. split; [apply watched_by; vm_compute; reflexivity|]. split; [vm_compute; reflexivity|]. vm_compute. auto.
Qed.

(** ** What does not hold *)
(** Hiding the output of a command also takes its standard input away: [output: false] is
    not only about display for a command that reads. *)
Definition reads (output : option bool) : taskmap := tm [mk "login" None [] [RCmd (CmdRun 1 (lit "gh auth login") [] None None output [] [])]].
Lemma login_shown : run_of (conf false) (reads None) (lit "login") (ran (conf false) (reads None) (lit "login") [Go [] 60 fine]).1 (Ret None).
Proof. apply finished. vm_compute. reflexivity. Qed.
Theorem C89_stdin_refuted : exists k tasks tasks' root h x, plain_tasks tasks = plain_tasks tasks' /\ keyed tasks /\ keyed tasks' /\
  run_of k tasks root h (Ret None) /\ Forall watched h /\ OStart x true ∈ h /\ x_stdin x = true /\
  forall h' p' x' b, run_of k tasks' root h' p' -> OStart x' b ∈ h' -> x_stdin x' = false.
Proof.
  exists (conf false), (reads None), (reads (Some false)), (lit "login").
  assert (Hk' : keyed (reads (Some false))) by (apply keyed_by; vm_compute; reflexivity).
  assert (Hone : exists x, OStart x true ∈ (ran (conf false) (reads None) (lit "login") [Go [] 60 fine]).1 /\ x_stdin x = true).
  { destruct (has_in (fun ev => match ev with OStart x true => x_stdin x | _ => false end) (ran (conf false) (reads None) (lit "login") [Go [] 60 fine]).1) as (ev & Hin & He);
      [vm_compute; reflexivity|]. destruct ev as [| | | | | | | | | | | | | |x []| | | | | | | | | | | | | |]; try discriminate He. exists x. split; assumption. }
  destruct Hone as (x & Hx & Hs).
  eexists _, x. split; [apply plain_same; reflexivity|]. split; [apply keyed_by; vm_compute; reflexivity|]. split; [exact Hk'|].
  split; [exact login_shown|]. split; [apply watched_by; vm_compute; reflexivity|]. split; [exact Hx|]. split; [exact Hs|].
  intros h' p' x' b Hr Hin. apply elem_of_list_split in Hin as (l1 & past & ->).
  destruct (C32_precedence (conf false) (reads (Some false)) (lit "login") Hk' _ _ x' b past Hr) as (t & c & s & silent & Htk & Hat & _ & _ & _ & Hshow & _ & _ & _ & Hoff).
  { exists l1. reflexivity. }
  apply Hoff. unfold reads, tm in Htk. cbn [map list_to_map foldr fst snd] in Htk. apply lookup_insert_Some in Htk as [[_ <-]|[_ Htk]]; [|rewrite lookup_empty in Htk; discriminate Htk].
  assert (Hc : c_output c = Some false).
  { unfold item_at in Hat. cbn in Hat. destruct (x_path x') as [|i [|j [|]]]; try contradiction Hat.
    - destruct i as [|i]; cbn in Hat; [|discriminate Hat]. injection Hat as <-. reflexivity.
    - destruct Hat as (o & items & H & _). destruct i; discriminate H. }
  rewrite Hc in Hshow. inversion Hshow. reflexivity.
Qed.
Print Assumptions C89_stdin_refuted.
