(** Properties of the command line. *)
From Verif Require Import Base StrOrder Types_Model Valid_Model Path_Model Path_Proof Include_Model Vars_Proof Run_Model
  Cli_Model Cli_Spec Cli_Proof Cli_Tree.

(** ** C47: the Babfile that is used *)

Theorem C47_nearest stat cwd : is_abs cwd = true -> clean cwd = cwd ->
  (forall p, find_babfile stat cwd = Found p <-> nearest stat (place_of cwd) p) /\
  (find_babfile stat cwd = NotFound <-> forall d, above d (place_of cwd) -> no_babfile_in stat d).
Proof.
  intros Ha Hc. pose proof (find_babfile_spec stat cwd Ha Hc) as H. destruct (find_babfile stat cwd) as [q| |]; [| |contradiction].
  - split; [|split; [discriminate|intros Hn; exfalso; exact (nearest_some _ _ _ H Hn)]].
    intros p. split; [intros [= ->]; exact H|]. intros Hp. f_equal. exact (nearest_unique _ _ _ _ H Hp).
  - split; [|split; auto]. intros p. split; [discriminate|]. intros Hp. exfalso. exact (nearest_some _ _ _ Hp H).
Qed.
Print Assumptions C47_nearest.

(** The search ends, from every directory, however it is written. *)
Theorem C47_ends stat cwd : is_abs cwd = true -> exists p, find_babfile stat cwd = Found p \/ find_babfile stat cwd = NotFound.
Proof.
  intros Ha. pose proof (find_babfile_ends stat cwd Ha) as H. destruct (find_babfile stat cwd) as [q| |]; [exists q; left; reflexivity|exists []; right; reflexivity|congruence].
Qed.
Print Assumptions C47_ends.

(** [os.Getwd] returns $PWD as it is when it names the current directory. Written with
    dots, the search goes down into a directory that is not above the current one. *)
Example C47_pwd_with_dots :
  let stat p := bool_decide (p = lit "/a/b/Babfile") in
  find_babfile stat (lit "/a/b/..") = Found (lit "/a/b/Babfile") /\
  place_of (lit "/a/b/..") = [lit "a"] /\ find_babfile stat (lit "/a") = NotFound.
Proof. vm_compute. auto. Qed.

Example C47_met :
  let stat p := bool_decide (p ∈ [lit "/home/babfile.yml"; lit "/home/u/Babfile.yml"; lit "/home/u/babfile.yaml"]) in
  is_abs (lit "/home/u/src/x") = true /\ clean (lit "/home/u/src/x") = lit "/home/u/src/x" /\
  find_babfile stat (lit "/home/u/src/x") = Found (lit "/home/u/Babfile.yml") /\
  nearest stat (place_of (lit "/home/u/src/x")) (lit "/home/u/Babfile.yml").
Proof.
  intros stat. split; [reflexivity|]. split; [reflexivity|]. assert (E : find_babfile stat (lit "/home/u/src/x") = Found (lit "/home/u/Babfile.yml")) by (vm_compute; reflexivity).
  split; [exact E|]. apply C47_nearest; [reflexivity..|exact E].
Qed.

(** ** C48: suggestions *)

(** The suggestion is the best candidate, or there is none good enough. *)
Theorem C48_best lower target cands :
  best_of lower target cands (find_similar lower target cands) \/
  (find_similar lower target cands = [] /\ forall c k, c ∈ cands -> alike (lower target) (lower c) k -> k < 50).
Proof. exact (find_similar_spec lower target cands). Qed.
Print Assumptions C48_best.

(** Similarity is defined for all texts, is one number, and at most 100. *)
Theorem C48_alike a b : exists k, alike a b k /\ k <= 100 /\ forall j, alike a b j -> j = k.
Proof.
  exists (similarity a b). split; [apply similarity_alike; reflexivity|]. split; [apply similarity_bound|].
  intros j Hj. apply similarity_alike in Hj. congruence.
Qed.
Print Assumptions C48_alike.

(** One text is suggested at most. *)
Theorem C48_unique lower target cands c d :
  best_of lower target cands c -> best_of lower target cands d -> c = d.
Proof. exact (best_unique lower target cands c d). Qed.
Print Assumptions C48_unique.

Theorem C48_order lower target l1 l2 : l1 ≡ₚ l2 -> find_similar lower target l1 = find_similar lower target l2.
Proof. exact (find_similar_order lower target l1 l2). Qed.
Print Assumptions C48_order.

Example C48_met :
  find_similar id (lit "biuld") [lit "test"; lit "builds"; lit "build"; lit "ui"] = lit "build" /\
  find_similar id (lit "abc") [lit "xabcd"; lit "abcx"; lit "abcd"] = lit "abcd" /\
  find_similar id (lit "zzz") [lit "test"; lit "build"] = [] /\ alike (lit "biuld") (lit "build") 60.
Proof. repeat split; try (vm_compute; reflexivity). apply similarity_alike. vm_compute. reflexivity. Qed.

(** An empty candidate is inside every text and shorter than any other: it wins over
    better looking ones of the same score, and nothing is suggested. *)
Example C48_empty_candidate : find_similar id (lit "abc") [lit "abcd"; []] = [] /\ find_similar id (lit "abc") [lit "abcd"] = lit "abcd".
Proof. vm_compute. auto. Qed.

(** ** C49: completion *)

(** The entries are one for every task name and one for every alias that starts with
    what is typed; there is no other. *)
Theorem C49_entries r typed torder aorder :
  iteration_order (pr_tasks r) torder -> iteration_order (pr_aliases r) aorder ->
  exists names aliases lines1 lines2,
    complete_names (Some r) [] typed torder aorder ≡ₚ lines1 ++ lines2 /\
    NoDup names /\ (forall n, n ∈ names <-> is_Some (pr_tasks r !! n) /\ starts_with typed n) /\
    NoDup aliases /\ (forall a, a ∈ aliases <-> is_Some (pr_aliases r !! a) /\ starts_with typed a) /\
    Forall2 (fun n e => task_line n (description (pr_tasks r) n) e) names lines1 /\
    Forall2 (fun a e => exists n, pr_aliases r !! a = Some n /\ alias_line a n (description (pr_tasks r) n) e) aliases lines2.
Proof. exact (complete_entries r typed torder aorder). Qed.
Print Assumptions C49_entries.

Theorem C49_sorted r args typed torder aorder : StronglySorted str_le (complete_names r args typed torder aorder).
Proof. exact (complete_sorted r args typed torder aorder). Qed.
Print Assumptions C49_sorted.

Theorem C49_map_order r args typed t1 a1 t2 a2 :
  t1 ≡ₚ t2 -> a1 ≡ₚ a2 -> complete_names r args typed t1 a1 = complete_names r args typed t2 a2.
Proof. exact (complete_order r args typed t1 a1 t2 a2). Qed.
Print Assumptions C49_map_order.

(** Nothing after the first argument, nothing when the Babfile cannot be loaded. *)
Theorem C49_nothing r a args typed t1 a1 :
  complete_names r (a :: args) typed t1 a1 = [] /\ complete_names None [] typed t1 a1 = [].
Proof. split; reflexivity. Qed.
Print Assumptions C49_nothing.

Definition plain_task (name desc : str) (aliases : list str) : task :=
  Task name 1 0 [] desc [] aliases None None None None [] [] [] [].
Definition some_tasks : taskmap :=
  list_to_map (map (fun t => (t_name t, t))
    [plain_task (lit "build") (lit "Build it") [lit "b"]; plain_task (lit "ci:build") [] []; plain_task (lit "bench") [] [lit "x"];
     plain_task (lit "ci:build:fast") (lit "Quick") [lit "q"; lit "ci:q"]; plain_task (lit "ci:lint") [] []]).
Definition some_result : presult :=
  PResult (lit "/Babfile") None None None None [] some_tasks
    (list_to_map [(lit "b", lit "build"); (lit "x", lit "bench"); (lit "q", lit "ci:build:fast"); (lit "bb", lit "bench")]).
Example C49_met :
  complete_names (Some some_result) [] (lit "b") (map_to_list some_tasks).*1 (map_to_list (pr_aliases some_result)).*1 =
    [lit "b" ++ tab :: lit "Build it (alias)"; lit "bb" ++ tab :: lit "alias for bench"; lit "bench"; lit "build" ++ tab :: lit "Build it"].
Proof. vm_compute. reflexivity. Qed.

(** ** C50: the tree of tasks *)

(** A line of the list: a task on its colon-separated path with its aliases and
    description, or a group on the way to a task, with neither. *)
Definition listed (tasks : taskmap) (path : list str) (i : list str * str) : Prop :=
  (exists name t, tasks !! name = Some t /\ colon_path name path /\ i = (get_all_aliases t, t_desc t)) \/
  ((exists name full, is_Some (tasks !! name) /\ colon_path name full /\ on_the_way path full) /\
   (forall name, is_Some (tasks !! name) -> ~ colon_path name path) /\ i = ([], [])).

Theorem C50_lines tasks order out : iteration_order tasks order -> run_list tasks order = Some out ->
  forall path i, (path, i) ∈ lines out <-> listed tasks path i.
Proof. exact (list_lines tasks order out). Qed.
Print Assumptions C50_lines.

(** Every path is shown once. *)
Theorem C50_once tasks order out : run_list tasks order = Some out -> NoDup (map fst (lines out)).
Proof. exact (list_once tasks order out). Qed.
Print Assumptions C50_once.

Theorem C50_alphabetical tasks order out : run_list tasks order = Some out -> alphabetical out.
Proof. exact (list_alphabetical tasks order out). Qed.
Print Assumptions C50_alphabetical.

Theorem C50_map_order tasks o1 o2 : iteration_order tasks o1 -> iteration_order tasks o2 -> run_list tasks o1 = run_list tasks o2.
Proof. exact (list_order tasks o1 o2). Qed.
Print Assumptions C50_map_order.

(** A list is printed exactly when there are tasks, and then it is not empty. *)
Theorem C50_nonempty tasks order : iteration_order tasks order ->
  (run_list tasks order = None <-> tasks = ∅) /\ (forall out, run_list tasks order = Some out -> out <> []).
Proof. exact (list_nonempty tasks order). Qed.
Print Assumptions C50_nonempty.

Example C50_met :
  iteration_order some_tasks (map_to_list some_tasks).*1 /\
  (lines <$> run_list some_tasks (map_to_list some_tasks).*1) = Some
    [([lit "bench"], ([lit "x"], [])); ([lit "build"], ([lit "b"], lit "Build it")); ([lit "ci"], ([], []));
     ([lit "ci"; lit "build"], ([], [])); ([lit "ci"; lit "build"; lit "fast"], ([lit "q"; lit "ci:q"], lit "Quick"));
     ([lit "ci"; lit "lint"], ([], []))].
Proof. split; [unfold iteration_order; reflexivity|]. vm_compute. reflexivity. Qed.

(** ** C51: exit status *)

Theorem C51_status r : (forall e, r = Some e -> own_claims_only e) ->
  (fst (main_run r) = 0 <-> r = None \/ exists e, r = Some e /\ cancelled e) /\
  (fst (main_run r) = 0 \/ fst (main_run r) = 1).
Proof.
  intros Ho. split; [|apply main_status]. rewrite main_zero by exact Ho. destruct r as [e|].
  - split; [intros H; right; exists e; auto|]. intros [[=] | (k & [= <-] & H)] e' [= <-]. exact H.
  - split; [left; reflexivity|intros _ e [=]].
Qed.
Print Assumptions C51_status.

(** The error of a run: the status is 0 iff what is at the bottom of the dependencies
    and parallel items that failed is the cancellation. *)
Theorem C51_run msg leaf e : (forall k, own_claims_only (leaf k)) -> (forall k, ~ cancelled (leaf k)) ->
  fst (main_run (Some (run_error msg leaf e))) = 0 <-> bottom e = RCancelled.
Proof. exact (run_status msg leaf e). Qed.
Print Assumptions C51_run.

(** What is logged: nothing for a cancellation; for a list of problems all of them in
    order (the other case is in [C51_lines]). *)
Theorem C51_reported e : own_claims_only e ->
  (cancelled e -> snd (main_run (Some e)) = []) /\
  (~ cancelled e -> forall l, e = EValidation l -> snd (main_run (Some e)) = map error_text l).
Proof. exact (main_reported e). Qed.
Print Assumptions C51_reported.

(** Each line logged, for an error that is no cancellation: if it carries a list of
    problems, wrapped or not, one line for each of them in order; otherwise its
    message, if it has one. A list inside the list is shown completely. *)
Theorem C51_lines e : own_claims_only e -> ~ cancelled e ->
  (forall l, carries e l -> Forall2 says l (snd (main_run (Some e)))) /\
  ((forall l, ~ carries e l) -> exists m, says e m /\ snd (main_run (Some e)) = match m with [] => [] | _ => [m] end).
Proof. exact (main_lines e). Qed.
Print Assumptions C51_lines.

Definition no_claim : sentinel -> bool := fun _ => false.
Example C51_met :
  let deep := EWrap no_claim (lit "a") (Some (EValidation [ESentinel (OtherSentinel 1) (lit "x"); EWrap no_claim (lit "b") (Some (ESentinel Canceled (lit "c")))])) in
  cancelled deep /\ fst (main_run (Some deep)) = 0 /\
  main_run (Some (EValidation [ESentinel (OtherSentinel 1) (lit "x"); EWrap no_claim (lit "b") None])) = (1, [lit "x"; lit "b"]) /\
  fst (main_run (Some (run_error (fun _ => lit "m") (fun _ => ESentinel (OtherSentinel 2) (lit "n")) (RDep (lit "d") (RItem 3 RCancelled))))) = 0.
Proof.
  split; [|vm_compute; auto]. exists (lit "c"). constructor. econstructor; [apply elem_of_list_further, elem_of_list_here|]. constructor. constructor.
Qed.

Example C51_lines_met :
  let x := ESentinel (OtherSentinel 1) (lit "x") in
  let e := EWrap no_claim (lit "outer") (Some (EValidation [x; EValidation [EWrap no_claim (lit "b") None; x]])) in
  ~ cancelled e /\ carries e [x; EValidation [EWrap no_claim (lit "b") None; x]] /\
  snd (main_run (Some e)) = [lit "x"; lit "b" ++ ascii_of_nat 10 :: lit "x"].
Proof.
  cbn zeta. split; [|split; [constructor; constructor|vm_compute; reflexivity]].
  rewrite <- errors_is_cancelled; [vm_compute; discriminate|]. intros c m k H.
  inversion H as [|? ? ? ? H1|]; subst; [reflexivity|]. inversion H1 as [| |? ? ? Hk H2]; subst. clear H H1.
  apply elem_of_cons in Hk as [->|Hk]; [inversion H2|]. apply elem_of_list_singleton in Hk as ->.
  inversion H2 as [| |? ? ? Hk H3]; subst. apply elem_of_cons in Hk as [->|Hk]; [inversion H3; reflexivity|].
  apply elem_of_list_singleton in Hk as ->. inversion H3.
Qed.

(** ** C60: modes *)

(** There is exactly one mode for every combination of flags and arguments. *)
Theorem C60_one_mode f args : exists! m, chosen f args m.
Proof. exact (chosen_one f args). Qed.
Print Assumptions C60_one_mode.

(** What each mode asks of the rest of the program. *)
Theorem C60_modes an f args m : chosen f args m ->
  match m with
  | MCompletion => fst (cli_run an f args) = if decide (g_completion f ∈ [lit "bash"; lit "zsh"; lit "fish"; lit "powershell"]) then [CScript (g_completion f)] else []
  | MValidate | MList => fst (cli_run an f args) = CLoad (g_babfile f) :: match an_load an with None => [CShow] | Some _ => [] end
  | MRun n => cli_run an f args = ([CRun (g_dry f) (g_babfile f) n], an_run an n)
  | MInteractive =>
      fst (cli_run an f args) = CLoad (g_babfile f) ::
        match an_load an, an_pick an with
        | Some _, _ => []
        | None, inr (Some n) => [CPick; CRun (g_dry f) (g_babfile f) n]
        | None, _ => [CPick]
        end
  end.
Proof. exact (cli_calls an f args m). Qed.
Print Assumptions C60_modes.

(** The error of bab is the error of the first of these calls that has one. *)
Theorem C60_error an f args m : chosen f args m ->
  snd (cli_run an f args) =
  match m with
  | MCompletion => if decide (g_completion f ∈ [lit "bash"; lit "zsh"; lit "fish"; lit "powershell"]) then an_script an else Some (an_shell an (g_completion f))
  | MValidate | MList => an_load an
  | MRun n => an_run an n
  | MInteractive =>
      match an_load an, an_pick an with
      | Some e, _ => Some e
      | None, inl e => Some e
      | None, inr None => None
      | None, inr (Some n) => an_run an n
      end
  end.
Proof.
  unfold cli_run. intros H. destruct H as [f args H | f args H1 H2 | f args H1 H2 H3 | f n rest H1 H2 H3 | f H1 H2 H3].
  - destruct (g_completion f); [contradiction (H eq_refl)|]. unfold run_completion. change shells with [lit "bash"; lit "zsh"; lit "fish"; lit "powershell"]. case_decide; reflexivity.
  - rewrite H1, H2. unfold run_load_show. destruct (an_load an); reflexivity.
  - rewrite H1, H2, H3. unfold run_load_show. destruct (an_load an); reflexivity.
  - rewrite H1, H2, H3. reflexivity.
  - rewrite H1, H2, H3. unfold run_interactive. destruct (an_load an); [reflexivity|]. destruct (an_pick an) as [e|[n|]]; reflexivity.
Qed.
Print Assumptions C60_error.

(** A task is executed only in the run and interactive modes, the one named first or
    the one picked, with the dry-run flag and Babfile given. *)
Theorem C60_only_these_execute an f args dry b n : CRun dry b n ∈ fst (cli_run an f args) ->
  dry = g_dry f /\ b = g_babfile f /\
  (chosen f args (MRun n) \/ (chosen f args MInteractive /\ an_load an = None /\ an_pick an = inr (Some n))).
Proof. exact (cli_executes an f args dry b n). Qed.
Print Assumptions C60_only_these_execute.

Example C60_met :
  let an := Answers None (inr (Some (lit "t"))) (fun _ => None) None (fun _ => ESentinel (OtherSentinel 0) []) in
  fst (cli_run an (Flags true false false [] (lit "f")) []) = [CLoad (lit "f"); CPick; CRun true (lit "f") (lit "t")] /\
  fst (cli_run an (Flags true true true [] []) [lit "x"]) = [CLoad []; CShow] /\
  fst (cli_run an (Flags false false false [] []) [lit "x"; lit "y"]) = [CRun false [] (lit "x")].
Proof. vm_compute. auto. Qed.
