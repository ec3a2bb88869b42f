(** C85: without parallel blocks, a run does the same every time. *)
From Verif Require Import Base Interp_Model Interp_Spec Vars_Proof Cond_Model Types_Model Path_Model Run_Model Run_Logic Run_Spec Run_Proof Run_Drive P_Run P_Run_Cmd Det_Spec Det_Proof.

(** What bab shows and asks, in order. *)
Definition line_of (ev : event) : option event :=
  match ev with
  | OHeader _ _ _ | OEcho _ _ _ _ | OLog _ _ _ _ _ | OSummary _ _ _ _ | OWould _ _ _ | OPrompt _ _ _ _ => Some ev
  | _ => None
  end.
Definition lines (h : hist) : list event := rev (omap line_of h).

Section Theorems.
  Context (k : config) (tasks : taskmap) (root : str) (Hno : no_blocks k tasks) (Htexts : texts_ok k tasks).
  Notation run_of := (run_of k tasks root).
  Notation same_event := (same_event k tasks).

  Lemma start_paired : paired k tasks ([], run_with_tasks k tasks root) ([], run_with_tasks k tasks root).
  Proof. split; cbn [fst snd]; [apply Forall2_nil_2; reflexivity|apply ag_run; assumption|]. intros l. exact (proj1 (proj2 Htexts)). Qed.

  (** At any time, one of two runs has done what the other did, and perhaps more. *)
  Theorem C85_same_so_far h p h' p' : run_of h p -> run_of h' p' -> uncancelled h -> uncancelled h' -> same_answers h h' -> answers_ok h ->
    (exists past', past' `suffix_of` h' /\ Forall2 same_event h past') \/ (exists past, past `suffix_of` h /\ Forall2 same_event past h').
  Proof.
    intros Hr Hr' U U' Ha Hok. destruct (lockstep k tasks _ _ _ _ Hr Hr' start_paired U U' Ha Hok) as [(z & _ & B & C)|(z & _ & B & C)].
    - left. exists z.1. split; [exact (proj2 (answered_grows k _ _ B))|exact (pr_hist _ _ _ _ C)].
    - right. exists z.1. split; [exact (proj2 (answered_grows k _ _ B))|exact (pr_hist _ _ _ _ C)].
  Qed.

  (** In the end both have done the same, with the same result. *)
  Theorem C85_same_end h r h' r' : run_of h (Ret r) -> run_of h' (Ret r') -> uncancelled h -> uncancelled h' -> same_answers h h' -> answers_ok h ->
    Forall2 same_event h h' /\ same_outcome r r'.
  Proof.
    intros Hr Hr' U U' Ha Hok. destruct (lockstep k tasks _ _ _ _ Hr Hr' start_paired U U' Ha Hok) as [([h1 p1] & _ & B & [C1 C2 _])|([h1 p1] & _ & B & [C1 C2 _])]; cbn in *.
    - inversion C2 as [r1 r2 Hs| | | |]; subst. pose proof (over_stuck _ _ _ _ B U') as E. injection E as -> ->. auto.
    - inversion C2 as [r1 r2 Hs| | | |]; subst. pose proof (over_stuck _ _ _ _ B U) as E. injection E as -> ->. auto.
  Qed.

  (** A run that is over does not end before or after the other one. *)
  Theorem C85_same_length h r h' p' : run_of h (Ret r) -> run_of h' p' -> uncancelled h -> uncancelled h' -> same_answers h h' -> answers_ok h ->
    exists past, past `suffix_of` h /\ Forall2 same_event past h'.
  Proof.
    intros Hr Hr' U U' Ha Hok. destruct (lockstep k tasks _ _ _ _ Hr Hr' start_paired U U' Ha Hok) as [([h1 p1] & _ & B & [C1 C2 _])|(z & _ & B & C)]; cbn in *.
    - inversion C2 as [r1 r2 Hs| | | |]; subst. pose proof (over_stuck _ _ _ _ B U') as E. injection E as -> ->. exists h. split; [reflexivity|exact C1].
    - exists z.1. split; [exact (proj2 (answered_grows k _ _ B))|exact (pr_hist _ _ _ _ C)].
  Qed.

  (** What is shown and asked is the same, to the letter. *)
  Theorem C85_same_lines h r h' r' : run_of h (Ret r) -> run_of h' (Ret r') -> uncancelled h -> uncancelled h' -> same_answers h h' -> answers_ok h -> lines h = lines h'.
  Proof.
    intros Hr Hr' U U' Ha Hok. destruct (C85_same_end _ _ _ _ Hr Hr' U U' Ha Hok) as [H _]. unfold lines. f_equal. clear -H.
    induction H as [|a b h h' Hab _ IH]; [reflexivity|]. destruct Hab; cbn; rewrite IH; reflexivity.
  Qed.

  (** Commands see the same environment if names of variables are names. *)
  Theorem C85_same_environment x x' : same_proc k tasks x x' -> (forall n, declared k tasks n -> env_name n) ->
    forall n v, env_name n -> (process_sees (x_environ x) n v <-> process_sees (x_environ x') n v).
  Proof.
    intros Hx Hd n v Hn. destruct (sp_environ _ _ _ _ Hx) as (base & m & o & o' & -> & -> & Ho & Ho' & Hm).
    pose proof (environ_sees base false false m o n Ho Hn (fun key Hk => Hd key (Hm key Hk))) as H. pose proof (environ_sees base false false m o' n Ho' Hn (fun key Hk => Hd key (Hm key Hk))) as H'.
    unfold command_environ in H, H'. cbn in H, H'. fold (entries m o) in H. fold (entries m o') in H'. destruct (m !! n) as [w|].
    - split; intros X; [rewrite (process_fun _ _ _ (Some w) X H); exact H'|rewrite (process_fun _ _ _ (Some w) X H'); exact H].
    - rewrite H, H'. reflexivity.
  Qed.
End Theorems.
Print Assumptions C85_same_so_far. Print Assumptions C85_same_end. Print Assumptions C85_same_length. Print Assumptions C85_same_lines. Print Assumptions C85_same_environment.

(** ** The conditions are met *)
Definition steady_tasks : taskmap := tm
  [ Task (lit "all") 1 1 (lit "/w/Babfile.yml") [] [] [] (Some {[ lit "x" := lit "${{ y }}"; lit "y" := lit "1" ]}) (Some {[ lit "A" := lit "a"; lit "B" := lit "${{ x }}" ]}) None None [] [] [lit "prep"]
      [ask "who"; cmd "greet ${{ who }} ${{ x }}"; ref "prep"; note "done"];
    mk "prep" None [] [cmd "p"] ].
Definition steady (rv : bool) := ran (conf false) steady_tasks (lit "all") [Go [] 100 (let a := says (lit "you") in if rv then backwards a else a)].
Definition environs (h : hist) : list (list str) := rev (omap (fun ev => match ev with OStart x _ => Some (x_environ x) | _ => None end) h).

Lemma all_nul_free_by m : forallb (fun x => negb (existsb (Ascii.eqb "000"%char) x.2)) (map_to_list m) = true -> all_nul_free m.
Proof.
  intros H n v Hn Hin. rewrite forallb_forall in H. apply elem_of_map_to_list, elem_of_list_In in Hn. specialize (H _ Hn). cbn in H. apply negb_true_iff in H.
  assert (existsb (Ascii.eqb "000"%char) v = true) as E; [|congruence]. apply existsb_exists. exists "000"%char. split; [apply elem_of_list_In; exact Hin|reflexivity].
Qed.

Lemma uncancelled_by h : forallb (fun ev => match ev with OCancel _ => false | _ => true end) h = true -> uncancelled h.
Proof. intros H i Hin. rewrite forallb_forall in H. apply elem_of_list_In in Hin. specialize (H _ Hin). discriminate H. Qed.
Lemma over_run k tasks root l r : result (ran k tasks root l).2 = Some r -> run_of k tasks root (ran k tasks root l).1 (Ret r).
Proof. intros H. pose proof (ran_run k tasks root l) as Hr. destruct (ran k tasks root l).2; try discriminate H. cbn in H. injection H as ->. exact Hr. Qed.
Lemma task_in l T t : tm l !! T = Some t -> t ∈ l.
Proof. intros H. apply elem_of_list_to_map_2 in H. apply elem_of_list_fmap in H as (t' & E & H). injection E as _ ->. exact H. Qed.

Example C85_met : no_blocks (conf false) steady_tasks /\ texts_ok (conf false) steady_tasks /\
  result (steady false).2 = Some None /\ result (steady true).2 = Some None /\
  uncancelled (steady false).1 /\ uncancelled (steady true).1 /\ same_answers (steady false).1 (steady true).1 /\ answers_ok (steady false).1 /\
  environs (steady true).1 = [[lit "HOME=/h"; lit "LANG=C"]; [lit "HOME=/h"; lit "LANG=C"; lit "A=a"; lit "B=1"]] /\
  environs (steady false).1 = [[lit "HOME=/h"; lit "LANG=C"]; [lit "HOME=/h"; lit "LANG=C"; lit "B=1"; lit "A=a"]].
Proof.
  split.
  { right. intros T t o items Ht Hin. apply task_in in Ht. repeat (apply elem_of_cons in Ht as [->|Ht]; [repeat (apply elem_of_cons in Hin as [E|Hin]; [discriminate E|]); inversion Hin|]). inversion Ht. }
  split.
  { split; [intros n Hn; inversion Hn|]. split; [intros n v Hn; cbn in Hn; rewrite lookup_empty in Hn; discriminate Hn|].
    intros T t vs Ht Hv. apply task_in in Ht. apply elem_of_cons in Ht as [->|Ht]; [injection Hv as <-; apply all_nul_free_by; vm_compute; reflexivity|].
    apply elem_of_cons in Ht as [->|Ht]; [discriminate Hv|inversion Ht]. }
  split; [vm_compute; reflexivity|]. split; [vm_compute; reflexivity|]. split; [apply uncancelled_by; vm_compute; reflexivity|]. split; [apply uncancelled_by; vm_compute; reflexivity|].
  split; [left; exists []; vm_compute; reflexivity|]. split.
  { intros v Hv. assert (answered (steady false).1 = [AStart true; AEnd true; APrompt (Some (lit "you")); AStart true; AEnd true]) as E by (vm_compute; reflexivity). rewrite E in Hv.
    repeat (apply elem_of_cons in Hv as [Ev|Hv]; [try discriminate Ev; injection Ev as ->; intros X; repeat (apply elem_of_cons in X as [Ex|X]; [discriminate Ex|]); inversion X|]). inversion Hv. }
  split; vm_compute; reflexivity.
Qed.

(** ** What does not hold *)
(** Which of two undefined variables is named is up to Go's order of the map. *)
Definition torn_tasks : taskmap := tm
  [ Task (lit "all") 1 1 (lit "/w/Babfile.yml") [] [] [] None (Some {[ lit "A" := lit "${{ u }}"; lit "B" := lit "${{ v }}" ]}) None None [] [] [] [cmd "c"] ].
Definition torn (rv : bool) := ran (conf false) torn_tasks (lit "all") [Go [] 100 (if rv then backwards fine else fine)].
Theorem C85_same_error_refuted : exists k tasks root h h' r r', no_blocks k tasks /\ run_of k tasks root h (Ret r) /\ run_of k tasks root h' (Ret r') /\
  uncancelled h /\ uncancelled h' /\ answered h = answered h' /\ r <> r'.
Proof.
  exists (conf false), torn_tasks, (lit "all"), (torn false).1, (torn true).1. do 2 eexists. split.
  { right. intros T t o items Ht Hin. apply task_in in Ht. apply elem_of_cons in Ht as [->|Ht]; [apply elem_of_cons in Hin as [E|Hin]; [discriminate E|]; inversion Hin|inversion Ht]. }
  split; [apply over_run; vm_compute; reflexivity|]. split; [apply over_run; vm_compute; reflexivity|].
  split; [apply uncancelled_by; vm_compute; reflexivity|]. split; [apply uncancelled_by; vm_compute; reflexivity|]. split; [vm_compute; reflexivity|]. discriminate.
Qed.
Print Assumptions C85_same_error_refuted.

(** A key with [=] in it competes with another one: which of them a command sees is up to
    Go's order of the map. *)
Definition rival_tasks : taskmap := tm
  [ mk "all" None [] [RCmd (CmdRun 1 (lit "env") [] (Some {[ lit "A" := lit "1"; lit "A=x" := lit "2" ]}) None None [] [])] ].
Definition rival (rv : bool) := ran (conf false) rival_tasks (lit "all") [Go [] 100 (if rv then backwards fine else fine)].
Theorem C85_same_environment_refuted : exists k tasks root h h' x x' v v', no_blocks k tasks /\ texts_ok k tasks /\ run_of k tasks root h (Ret None) /\ run_of k tasks root h' (Ret None) /\
  uncancelled h /\ uncancelled h' /\ answered h = answered h' /\ OStart x true ∈ h /\ OStart x' true ∈ h' /\
  process_sees (x_environ x) (lit "A") (Some v) /\ process_sees (x_environ x') (lit "A") (Some v') /\ v <> v'.
Proof.
  assert (has (fun ev => match ev with OStart x true => bool_decide (x_environ x = [lit "HOME=/h"; lit "LANG=C"; lit "A=x=2"; lit "A=1"]) | _ => false end) (rival false).1 = true) as H1 by (vm_compute; reflexivity).
  assert (has (fun ev => match ev with OStart x true => bool_decide (x_environ x = [lit "HOME=/h"; lit "LANG=C"; lit "A=1"; lit "A=x=2"]) | _ => false end) (rival true).1 = true) as H2 by (vm_compute; reflexivity).
  apply has_start in H1 as (x & A1 & B1). apply bool_decide_eq_true in B1. apply has_start in H2 as (x' & A2 & B2). apply bool_decide_eq_true in B2.
  exists (conf false), rival_tasks, (lit "all"), (rival false).1, (rival true).1, x, x', (lit "1"), (lit "x=2"). split.
  { right. intros T t o items Ht Hin. apply task_in in Ht. apply elem_of_cons in Ht as [->|Ht]; [apply elem_of_cons in Hin as [E|Hin]; [discriminate E|]; inversion Hin|inversion Ht]. }
  split.
  { split; [intros n Hn; inversion Hn|]. split; [intros n v Hn; cbn in Hn; rewrite lookup_empty in Hn; discriminate Hn|].
    intros T t vs Ht Hv. apply task_in in Ht. apply elem_of_cons in Ht as [->|Ht]; [discriminate Hv|inversion Ht]. }
  split; [apply over_run; vm_compute; reflexivity|]. split; [apply over_run; vm_compute; reflexivity|].
  split; [apply uncancelled_by; vm_compute; reflexivity|]. split; [apply uncancelled_by; vm_compute; reflexivity|]. split; [vm_compute; reflexivity|].
  split; [exact A1|]. split; [exact A2|]. rewrite B1, B2. split; [|split; [|discriminate]].
  - exists [lit "HOME=/h"; lit "LANG=C"; lit "A=x=2"], []. split; [reflexivity|]. intros v' X. inversion X.
  - exists [lit "HOME=/h"; lit "LANG=C"; lit "A=1"], []. split; [reflexivity|]. intros v' X. inversion X.
Qed.
Print Assumptions C85_same_environment_refuted.
