(** Theorems about validation: references (C08), cycles (C09, C10), aliases (C11). *)
From Verif Require Import Base Types_Model Valid_Model Valid_Spec Vars_Proof Valid_Proof Alias_Proof.

Definition orders_ok (tasks : taskmap) (o : vorders) : Prop :=
  iteration_order tasks (o_deps o) /\ iteration_order tasks (o_refs o) /\
  iteration_order tasks (o_cycles o) /\ iteration_order tasks (o_aliases o).

(** C08. A dangling reference is reported, with the task that holds it; and
    only dangling references are. *)
Theorem C08_every_dangling_reference_reported grow tasks o : orders_ok tasks o ->
  (forall a n, edge tasks a n -> tasks !! n = None ->
     exists line, VNotFound line n a ∈ validate_all grow tasks o) /\
  (forall line n a, VNotFound line n a ∈ validate_all grow tasks o ->
     edge tasks a n /\ tasks !! n = None).
Proof.
  intros (Ho1 & Ho2 & Ho3 & Ho4). unfold validate_all. split.
  - intros a n (t & Ht & [Hd|Hr]) Hn.
    + eexists. apply elem_of_app. left. apply in_deps_pass; [exact Ho1|]. exists a, t, n. eauto.
    + apply at_depth_refers in Hr as (it & r & Hit & Hd & <-). eexists. apply elem_of_app. right.
      apply elem_of_app. left. apply in_refs_pass; [exact Ho2|]. exists a, t, it, r. auto 6.
  - intros line n a H. apply elem_of_app in H as [H|H].
    + apply in_deps_pass in H as (a' & t & n' & Ht & Hd & Hn & Heq); [|exact Ho1]. injection Heq as _ -> ->.
      split; [exists t; auto|exact Hn].
    + apply elem_of_app in H as [H|H].
      * apply in_refs_pass in H as (a' & t & it & r & Ht & Hit & Hd & Hn & Heq); [|exact Ho2].
        injection Heq as _ -> ->. split; [|exact Hn]. exists t. split; [exact Ht|]. right.
        apply at_depth_refers. eauto.
      * exfalso. apply elem_of_app in H as [H|H].
        -- destruct (run_cycles_post grow tasks _ Ho3) as [[Hg _] _]. rewrite Forall_forall in Hg.
           destruct (Hg _ H) as (c & now & Heq & _). discriminate.
        -- revert H. apply alias_errs_kind.
Qed.

(** C08, C09, C11 together: validation accepts exactly the task maps with no
    dangling reference, no cycle and no ambiguous alias, whatever the iteration
    orders. *)
Theorem C08_accepted_iff_well_formed grow tasks o : orders_ok tasks o ->
  validate_all grow tasks o = [] <-> ~ dangling tasks /\ ~ cyclic tasks /\ ~ ambiguous tasks.
Proof.
  intros (Ho1 & Ho2 & Ho3 & Ho4). unfold validate_all. rewrite !app_nil.
  rewrite <- (refs_pass_nil tasks _ _ Ho1 Ho2), <- (aliases_iff tasks _ Ho4).
  assert (y_errs (validate_run_cycles grow tasks (o_cycles o)) = [] <-> ~ cyclic tasks) as ->.
  { rewrite <- (cycles_iff grow tasks _ Ho3). destruct (y_errs _); split; intros H; try congruence.
    exfalso. apply H. discriminate. }
  tauto.
Qed.

Theorem C08_no_dangling_reference grow tasks o a n : orders_ok tasks o ->
  validate_all grow tasks o = [] -> edge tasks a n -> is_Some (tasks !! n).
Proof.
  intros Ho H He. apply (C08_accepted_iff_well_formed grow tasks o Ho) in H as (Hd & _ & _).
  destruct (tasks !! n) eqn:En; [eauto|]. exfalso. apply Hd. exists a, n. auto.
Qed.

(** C09. A cycle error is reported exactly for cyclic graphs. *)
Theorem C09_cycle_error_iff_cyclic grow tasks order : iteration_order tasks order ->
  (y_errs (validate_run_cycles grow tasks order) <> [] <-> cyclic tasks).
Proof. apply cycles_iff. Qed.

Theorem C09_verdict_order_independent grow tasks o1 o2 :
  iteration_order tasks o1 -> iteration_order tasks o2 ->
  (y_errs (validate_run_cycles grow tasks o1) = [] <-> y_errs (validate_run_cycles grow tasks o2) = []).
Proof.
  intros H1 H2. pose proof (cycles_iff grow tasks o1 H1) as E1. pose proof (cycles_iff grow tasks o2 H2) as E2.
  destruct (y_errs (validate_run_cycles grow tasks o1)), (y_errs (validate_run_cycles grow tasks o2));
    split; intros H; try reflexivity; try discriminate; exfalso.
  - apply (proj2 E1); [|reflexivity]. apply E2. discriminate.
  - apply (proj2 E2); [|reflexivity]. apply E1. discriminate.
Qed.

(** C10, first part: at the moment an error is added its chain follows edges of
    the graph, and the chain of the first error closes a cycle. *)
Theorem C10_chain_when_added_partial grow tasks order : iteration_order tasks order ->
  Forall (linked (edge tasks)) (chains_when_added grow tasks order) /\
  (forall c rest, chains_when_added grow tasks order = c :: rest -> closes (edge tasks) c) /\
  (chains_when_added grow tasks order <> [] <-> cyclic tasks).
Proof.
  intros Ho. destruct (chains_good grow tasks order Ho) as [H1 H2].
  split; [exact H1|]. split; [exact H2|]. apply chains_nonempty; exact Ho.
Qed.

(** C10, second part: what the caller of [Parse] finally reads. A reported chain
    whose length is one more than a full capacity (2, 3, 5, 9, 17, ... for Go) is
    a real path, and the first one a real cycle. *)
Theorem C10_reported_chain_partial grow tasks order i c : iteration_order tasks order ->
  reported_chains grow tasks order !! i = Some c -> tight grow (length c - 1) ->
  linked (edge tasks) c /\ (i = 0 -> closes (edge tasks) c).
Proof.
  intros Ho Hi Ht. pose proof (reported_tight grow tasks order i c Ho Hi Ht) as Hadd.
  destruct (chains_good grow tasks order Ho) as [H1 H2]. split.
  - rewrite Forall_lookup in H1. eapply H1; exact Hadd.
  - intros ->. destruct (chains_when_added grow tasks order) as [|c' rest] eqn:Ec; [discriminate|].
    simpl in Hadd. injection Hadd as ->. eapply H2. reflexivity.
Qed.

(** For Go's growth policy, self-references and two-step chains are covered. *)
Lemma go_tight : tight go_grow 1 /\ tight go_grow 2 /\ tight go_grow 4 /\ tight go_grow 8 /\ tight go_grow 16.
Proof.
  split; [exists 1; reflexivity|]. split; [exists 2; reflexivity|]. split; [exists 3; reflexivity|].
  split; [exists 4; reflexivity|exists 5; reflexivity].
Qed.

(** Small task maps for the examples. *)
Definition mk_task (deps : list str) (run : list run_item) : task :=
  Task [] 1 0 [] [] [] [] None None None None [] [] deps run.
Definition ref_to (n : string) : run_item := RTask (TaskRun 1 (lit n) None None [] []).
Definition par_of (l : list run_item) : run_item := RPar (ParOpts 1 [] [] 0 None None None [] []) l.
Definition tm (l : list (string * task)) : taskmap := list_to_map (map (fun p => (lit p.1, p.2)) l).

(** C10 fails in general, 1: after a cycle has been reported, the stack marks are
    not reset, and a chain that closes nothing is reported. *)
Definition stale : taskmap := tm [("a", mk_task [lit "a"] []); ("b", mk_task [lit "a"] [])].
Theorem C10_stale_stack_refuted : exists tasks order c,
  iteration_order tasks order /\ c ∈ reported_chains go_grow tasks order /\ ~ closes (edge tasks) c /\
  order = [lit "a"; lit "b"].
Proof.
  exists stale, [lit "a"; lit "b"], [lit "b"; lit "a"].
  split; [apply (bool_decide_unpack _); vm_compute; exact I|].
  split; [apply (bool_decide_unpack _); vm_compute; exact I|]. split; [|reflexivity].
  intros (pre & n & Heq & Hin & _).
  assert (pre = [lit "b"] /\ n = lit "a") as [-> ->].
  { change [lit "b"; lit "a"] with ([lit "b"] ++ [lit "a"]) in Heq.
    apply app_inj_tail in Heq as [<- <-]. auto. }
  revert Hin. apply (bool_decide_unpack _). vm_compute. exact I.
Qed.

(** C10 fails in general, 2: with one single cycle, the reported chain is
    overwritten through the shared backing array before the caller sees it. *)
Definition shared : taskmap :=
  tm [("a", mk_task [lit "b"] []); ("b", mk_task [lit "c"] []);
      ("c", mk_task [] [par_of [ref_to "a"]; ref_to "d"]); ("d", mk_task [] [])].
Theorem C10_overwritten_chain_refuted : exists tasks order,
  iteration_order tasks order /\
  chains_when_added go_grow tasks order = [[lit "a"; lit "b"; lit "c"; lit "a"]] /\
  reported_chains go_grow tasks order = [[lit "a"; lit "b"; lit "c"; lit "d"]] /\
  (forall n, ~ edge tasks (lit "d") n).
Proof.
  exists shared, [lit "a"; lit "b"; lit "c"; lit "d"].
  split; [apply (bool_decide_unpack _); vm_compute; exact I|].
  split; [vm_compute; reflexivity|]. split; [vm_compute; reflexivity|].
  intros n (t & Ht & He). assert (t = mk_task [] []) as ->.
  { enough (shared !! lit "d" = Some (mk_task [] [])) by congruence. vm_compute. reflexivity. }
  simpl in He. destruct He as [He|He]; [apply elem_of_nil in He; exact He|apply refers_nil in He; exact He].
Qed.

(** C11. With no validation error, an alias names exactly the task that declares
    it, and a task name names the task. *)
Theorem C11_alias_runs_its_task grow tasks o border : orders_ok tasks o -> iteration_order tasks border ->
  validate_all grow tasks o = [] ->
  (forall a n i, declares tasks n i a -> resolve_task_name (build_alias_map tasks border) a = n) /\
  (forall n, is_Some (tasks !! n) -> resolve_task_name (build_alias_map tasks border) n = n) /\
  (forall a n m i j, declares tasks n i a -> declares tasks m j a -> n = m /\ i = j).
Proof.
  intros Ho Hb H. apply (C08_accepted_iff_well_formed grow tasks o Ho) in H as (_ & _ & Hna).
  pose proof (alias_map_iff tasks border Hb Hna) as Hm. unfold resolve_task_name. split; [|split].
  - intros a n i Hd. assert (build_alias_map tasks border !! a = Some n) as ->; [|reflexivity]. apply Hm. eauto.
  - intros n [t Ht]. destruct (build_alias_map tasks border !! n) as [m|] eqn:Em; [|reflexivity].
    exfalso. apply Hm in Em as [i Hd]. apply Hna. exists n, m, i. split; [exact Hd|]. left. eauto.
  - intros a n m i j H1 H2. destruct (decide ((m, j) = (n, i))) as [Heq|Hne]; [split; congruence|].
    exfalso. apply Hna. exists a, n, i. split; [exact H1|]. right. eauto.
Qed.

(** A name that is neither is left alone (and later reported as unknown). *)
Theorem C11_other_names_unchanged grow tasks o border name : orders_ok tasks o -> iteration_order tasks border ->
  validate_all grow tasks o = [] -> (forall n i, ~ declares tasks n i name) ->
  resolve_task_name (build_alias_map tasks border) name = name.
Proof.
  intros Ho Hb H Hn. apply (C08_accepted_iff_well_formed grow tasks o Ho) in H as (_ & _ & Hna).
  unfold resolve_task_name. destruct (build_alias_map tasks border !! name) as [m|] eqn:Em; [|reflexivity].
  exfalso. apply (alias_map_iff tasks border Hb Hna) in Em as [i Hd]. exact (Hn m i Hd).
Qed.

(** Ambiguous aliases are rejected, whatever the order. *)
Theorem C11_ambiguous_rejected grow tasks o : orders_ok tasks o -> ambiguous tasks -> validate_all grow tasks o <> [].
Proof.
  intros Ho Ha H. apply (C08_accepted_iff_well_formed grow tasks o Ho) in H as (_ & _ & Hna). contradiction.
Qed.

Print Assumptions C08_every_dangling_reference_reported.
Print Assumptions C08_accepted_iff_well_formed.
Print Assumptions C08_no_dangling_reference.
Print Assumptions C09_cycle_error_iff_cyclic.
Print Assumptions C09_verdict_order_independent.
Print Assumptions C10_chain_when_added_partial.
Print Assumptions C10_reported_chain_partial.
Print Assumptions C10_stale_stack_refuted.
Print Assumptions C10_overwritten_chain_refuted.
Print Assumptions C11_alias_runs_its_task.
Print Assumptions C11_other_names_unchanged.
Print Assumptions C11_ambiguous_rejected.

(** ** Cases meeting the hypotheses *)
Definition with_aliases (al : string) (als : list string) (t : task) : task :=
  Task (t_name t) (t_line t) (t_deps_line t) (t_source t) (t_desc t) (lit al) (map lit als) (t_vars t) (t_env t)
    (t_silent t) (t_output t) (t_dir t) (t_when t) (t_deps t) (t_run t).

Definition good : taskmap :=
  tm [("build", with_aliases "b" ["make"; "m"] (mk_task [lit "gen"] [ref_to "lint"]));
      ("gen", mk_task [] []);
      ("lint", with_aliases "" ["l"] (mk_task [] [par_of [ref_to "gen"; par_of [ref_to "vet"]]]));
      ("vet", mk_task [] [])].
Definition good_order : list str := map lit ["lint"; "gen"; "vet"; "build"].
Definition good_orders : vorders := VOrders good_order (rev good_order) good_order (rev good_order).

Example C08_example : orders_ok good good_orders /\ validate_all go_grow good good_orders = [] /\
  edge good (lit "lint") (lit "vet").
Proof.
  split; [|split].
  - split; [|split; [|split]]; apply (bool_decide_unpack _); vm_compute; exact I.
  - vm_compute. reflexivity.
  - eexists. split; [vm_compute; reflexivity|]. right. simpl. apply refers_inside, refers_later, refers_inside.
    apply (refers_here (TaskRun 1 (lit "vet") None None [] [])).
Qed.

(** A dangling reference two blocks deep is found. *)
Example C08_dangling_example :
  let t := tm [("x", mk_task [] [par_of [par_of [ref_to "nope"]]])] in
  let o := VOrders [lit "x"] [lit "x"] [lit "x"] [lit "x"] in
  orders_ok t o /\ validate_all go_grow t o = [VNotFound 1 (lit "nope") (lit "x")].
Proof.
  split; [|vm_compute; reflexivity].
  split; [|split; [|split]]; apply (bool_decide_unpack _); vm_compute; exact I.
Qed.

(** A cycle through a dependency and a nested reference, found from both ends. *)
Definition looped : taskmap := tm [("p", mk_task [lit "q"] []); ("q", mk_task [] [par_of [ref_to "p"]])].
Example C09_example :
  iteration_order looped [lit "p"; lit "q"] /\ iteration_order looped [lit "q"; lit "p"] /\
  reported_chains go_grow looped [lit "p"; lit "q"] = [[lit "p"; lit "q"; lit "p"]] /\
  reported_chains go_grow looped [lit "q"; lit "p"] = [[lit "q"; lit "p"; lit "q"]] /\
  tight go_grow (length [lit "p"; lit "q"; lit "p"] - 1).
Proof.
  split; [apply (bool_decide_unpack _); vm_compute; exact I|].
  split; [apply (bool_decide_unpack _); vm_compute; exact I|].
  split; [vm_compute; reflexivity|]. split; [vm_compute; reflexivity|]. apply go_tight.
Qed.

Example C11_example : iteration_order good (rev good_order) /\
  map (fun a => resolve_task_name (build_alias_map good (rev good_order)) (lit a)) ["b"; "m"; "l"; "gen"; "zzz"]
  = map lit ["build"; "build"; "lint"; "gen"; "zzz"] /\
  declares good (lit "build") 2 (lit "m").
Proof.
  split; [apply (bool_decide_unpack _); vm_compute; exact I|]. split; [vm_compute; reflexivity|].
  eexists. split; [vm_compute; reflexivity|]. split; [reflexivity|discriminate].
Qed.

Example C11_ambiguous_example :
  let t := tm [("x", with_aliases "y" [] (mk_task [] [])); ("z", with_aliases "" ["y"] (mk_task [] []))] in
  ambiguous t /\ validate_aliases t [lit "z"; lit "x"] = [VDuplicateAlias 1 (lit "y") (lit "x") (lit "z")].
Proof.
  split; [|vm_compute; reflexivity]. exists (lit "y"), (lit "x"), 0. split.
  - eexists. split; [vm_compute; reflexivity|]. split; [reflexivity|discriminate].
  - right. exists (lit "z"), 1. split; [|discriminate].
    eexists. split; [vm_compute; reflexivity|]. split; [reflexivity|discriminate].
Qed.
