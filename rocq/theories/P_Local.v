(** Theorems about what a run depends on: C91. *)
From Verif Require Import Base Interp_Model Types_Model Valid_Model Valid_Spec Path_Model Include_Model Include_Proof P_Valid P_Include
  Run_Model Run_Logic Run_Inv Run_Proof Run_Facts Run_Drive P_Run P_Run_Cmd Run_Main P_Run_Parse P_Dry Local_Spec Local_Proof.

(** C91. Of all tasks there are, a run depends only on those that the task it is started with leads
    to: with the same ones, whatever happens with the ones can happen with the others,
    event by event, under any schedule and any answers from outside, and the result is the same. *)
Theorem C91_depends_on_what_it_leads_to k tasks1 tasks2 root : keyed tasks1 -> keyed tasks2 -> same_from tasks1 tasks2 root ->
  (forall h, (exists p, run_of k tasks1 root h p) <-> (exists p, run_of k tasks2 root h p)) /\
  (forall h r, run_of k tasks1 root h (Ret r) <-> run_of k tasks2 root h (Ret r)).
Proof.
  intros H1 H2 Hs. pose proof (same_from_sym _ _ _ Hs) as Hs'. split; [intros h|intros h r]; split.
  - intros [p Hp]. destruct (same_runs k tasks1 tasks2 root H1 Hs h p Hp) as (p2 & H & _). eauto.
  - intros [p Hp]. destruct (same_runs k tasks2 tasks1 root H2 Hs' h p Hp) as (p2 & H & _). eauto.
  - apply (same_results k tasks1 tasks2 root H1 Hs).
  - apply (same_results k tasks2 tasks1 root H2 Hs').
Qed.
Print Assumptions C91_depends_on_what_it_leads_to.

Lemma grown_has fs1 fs2 path nss m n t : grown_files fs1 fs2 -> Include_Proof.has fs1 path nss m n t -> Include_Proof.has fs2 path nss m n t.
Proof.
  intros Hg. induction 1 as [path bf m t Hf Ht|path bf ns p bf' nss m n t Hf Hp Hf' Hh IH].
  - destruct (Hg _ _ Hf) as (b2 & Hf2 & G). eapply has_own; [exact Hf2|]. apply (gr_tasks _ _ G). exact Ht.
  - destruct (Hg _ _ Hf) as (b2 & Hf2 & G). destruct (Hg _ _ Hf') as (b2' & Hf2' & G').
    pose proof (has_inc fs2 path b2 ns p b2' nss m n t Hf2 (gr_includes _ _ G _ _ Hp) Hf2' IH) as R.
    destruct (gr_rest _ _ G') as (E1 & E2 & E3 & E4 & E5). unfold file_result in R |- *. rewrite E1, E2, E3, E4, E5 in R. exact R.
Qed.

(** Adding tasks and includes to a Babfile, or to one that it includes, changes nothing for a
    task that was there, as long as the result is accepted: the name still means the same task,
    and the same runs are possible. *)
Theorem C91_adding_changes_nothing w fs2 dry path name k1 tasks1 root1 k2 tasks2 root2 : world_ok w -> grown_files (w_fs w) fs2 ->
  load w dry path name = Ok (k1, tasks1, root1) ->
  load (World fs2 (w_cwd w) (w_orc w) (w_grow w) (w_vorc w) (w_order w) (w_getenv w) (w_environ w) (w_os w) (w_terminal w)) dry path name = Ok (k2, tasks2, root2) ->
  is_Some (tasks1 !! name) \/ (exists n i, declares tasks1 n i name) ->
  root2 = root1 /\ (forall n t, tasks1 !! n = Some t -> tasks2 !! n = Some t) /\
  (forall h, (exists p, run_of k1 tasks1 root1 h p) <-> (exists p, run_of k2 tasks2 root2 h p)) /\
  (forall h r, run_of k1 tasks1 root1 h (Ret r) <-> run_of k2 tasks2 root2 h (Ret r)).
Proof.
  intros [Ho Hv] Hg Hl1 Hl2 Hname. set (w2 := World fs2 _ _ _ _ _ _ _ _ _) in Hl2.
  destruct (load_inv _ _ _ _ _ _ _ Hl1) as (r1 & vars1 & Hp1 & Hv1 & -> & -> & ->).
  destruct (load_inv _ _ _ _ _ _ _ Hl2) as (r2 & vars2 & Hp2 & Hv2 & -> & -> & ->). cbn [w2 w_fs w_orc w_grow w_vorc w_cwd w_getenv w_order] in Hp2, Hv2.
  pose proof (parse_keyed _ _ _ _ _ _ _ Ho Hv Hp1) as Hk1. pose proof (parse_keyed _ _ _ _ _ _ _ Ho Hv Hp2) as Hk2.
  pose proof (C08_parse_leaves_no_dangling_reference _ _ _ _ _ _ _ Ho Hv Hp1) as Hcl.
  destruct (C11_parse_aliases _ _ _ _ _ _ _ Ho Hv Hp1) as [A1 A1']. destruct (C11_parse_aliases _ _ _ _ _ _ _ Ho Hv Hp2) as [A2 A2'].
  apply parse_Ok in Hp1 as [Hp1 _]. apply parse_Ok in Hp2 as [Hp2 _].
  apply parse_sound in Hp1 as ((b1 & Hf1 & (_ & V1 & E1 & S1 & U1 & D1) & T1) & _); [|exact Ho].
  apply parse_sound in Hp2 as ((b2 & Hf2 & (_ & V2 & E2 & S2 & U2 & D2) & T2) & _); [|exact Ho].
  assert (Hsub : forall n t, pr_tasks r1 !! n = Some t -> pr_tasks r2 !! n = Some t).
  { intros n t Ht. apply T2. apply T1 in Ht as (nss & m & Hh). exists nss, m. eapply grown_has; eassumption. }
  destruct (Hg _ _ Hf1) as (b2' & Hf2' & G). rewrite Hf2 in Hf2'. injection Hf2' as <-. destruct (gr_rest _ _ G) as (G1 & G2 & G3 & G4 & G5).
  assert (Ev : pr_vars r2 = pr_vars r1) by congruence. rewrite Ev, Hv1 in Hv2. injection Hv2 as <-.
  assert (Ek : loaded w2 dry r2 vars1 = loaded w dry r1 vars1).
  { unfold loaded. cbn. rewrite E1, S1, U1, D1, E2, S2, U2, D2, G2, G3, G4, G5. reflexivity. }
  assert (Hroot : resolve_task_name (pr_aliases r2) name = resolve_task_name (pr_aliases r1) name /\ is_Some (pr_tasks r1 !! resolve_task_name (pr_aliases r1) name)).
  { unfold resolve_task_name. destruct Hname as [[t Ht]|(n & i & t & Ht & Hi & Hne)].
    - rewrite (A1' name) by eauto. rewrite (A2' name) by eauto. cbn. split; [reflexivity|eauto].
    - assert (R1 : pr_aliases r1 !! name = Some n) by (apply A1; exists i, t; auto).
      assert (R2 : pr_aliases r2 !! name = Some n) by (apply A2; exists i, t; auto). rewrite R1, R2. cbn. split; [reflexivity|eauto]. }
  destruct Hroot as [Er Hr]. rewrite Er, Ek. split; [reflexivity|]. split; [exact Hsub|].
  apply C91_depends_on_what_it_leads_to; [exact Hk1|exact Hk2|].
  intros m Hm. assert (is_Some (pr_tasks r1 !! m)) as [t Ht].
  { apply rtc_inv_r in Hm as [<-|(y & _ & He)]; [exact Hr|]. eapply Hcl. exact He. }
  rewrite Ht, (Hsub m t Ht). reflexivity.
Qed.
Print Assumptions C91_adding_changes_nothing.

(** ** Cases *)
(** [other] leads to tasks that [all] does not lead to, and [dep] is shared. *)
Definition few : taskmap := tm [mk "all" None ["dep"%string] [par 0 [ref "a"; cmd "z"]]; mk "a" None [] [cmd "y"]; mk "dep" None [] [cmd "x"]].
Definition more : taskmap := tm [mk "all" None ["dep"%string] [par 0 [ref "a"; cmd "z"]]; mk "a" None [] [cmd "y"]; mk "dep" None [] [cmd "x"];
  mk "other" None ["dep"%string; "third"%string] [ref "all"]; mk "third" None [] [cmd "w"]].
Lemma closed_from (tasks : taskmap) root (l : list str) : root ∈ l ->
  forallb (fun n => match tasks !! n with None => true | Some t => forallb (fun m => bool_decide (m ∈ l)) (t_deps t ++ flat_map (fix names it := match it with RTask r => [r_task r] | RPar _ sub => flat_map names sub | _ => [] end) (t_run t)) end) l = true ->
  forall m, rtc (edge tasks) root m -> m ∈ l.
Proof.
  intros Hroot Hl m Hm. rewrite forallb_forall in Hl. induction Hm as [x|x y z (t & Ht & Hy) Hz IH]; [exact Hroot|]. apply IH.
  specialize (Hl x (proj1 (elem_of_list_In _ _) Hroot)). cbn in Hl. rewrite Ht in Hl. rewrite forallb_forall in Hl.
  apply (bool_decide_eq_true_1 (y ∈ l)). apply Hl. apply elem_of_list_In. apply elem_of_app. destruct Hy as [Hy|Hy]; [left; exact Hy|right].
  apply elem_of_list_In, in_flat_map. clear -Hy. induction Hy as [r rest|o sub rest n H IH|it rest n H IH].
  - exists (RTask r). split; [left; reflexivity|left; reflexivity].
  - exists (RPar o sub). split; [left; reflexivity|]. apply in_flat_map. exact IH.
  - destruct IH as (x & Hx & Hn). exists x. split; [right; exact Hx|exact Hn].
Qed.
Definition script : list act := [Go [] 60 fine; Do [] (MSlot 0); Do [] (MSlot 1); Go [1] 60 fine; Go [0] 60 fine; Do [] (MReturn 1); Do [] (MFree 1); Do [] (MReturn 0); Do [] (MFree 0); Do [] MJoin; Go [] 60 fine].
Example C91_met : keyed few /\ keyed more /\ same_from few more (lit "all") /\ few <> more /\
  run_of (conf false) few (lit "all") (ran (conf false) few (lit "all") script).1 (Ret None).
Proof.
  split; [apply keyed_by; vm_compute; reflexivity|]. split; [apply keyed_by; vm_compute; reflexivity|]. split; [|split].
  - intros m Hm. apply (closed_from few (lit "all") [lit "all"; lit "a"; lit "dep"]) in Hm; [|left|vm_compute; reflexivity].
    repeat (apply elem_of_cons in Hm as [->|Hm]; [vm_compute; reflexivity|]). inversion Hm.
  - intros E. assert (H : few !! lit "third" = more !! lit "third") by (rewrite E; reflexivity). vm_compute in H. discriminate H.
  - apply finished. vm_compute. reflexivity.
Qed.

(** A task and an include are added to the tree of C17. *)
Definition grown_tree : fsys := fsof
  [("/r/Babfile", file [("x", "lib/Babfile"); ("v", "v.yml")] [("all", mk_task [lit "x:go"] [ref_to "x:t"]); ("more", mk_task [lit "all"] [ref_to "v:w"])]);
   ("/r/lib/Babfile", file [("y", "../y.yml")] [("go", mk_task [] [cmd "make"]); ("t", with_aliases "tt" [] (mk_task [] [])); ("u", mk_task [] [ref_to "t"])]);
   ("/r/y.yml", file [] [("z", mk_task [] [cmd "make"])]); ("/r/v.yml", file [] [("w", mk_task [] [cmd "make"])])].
Example C91_grown_met : grown_files (tree "") grown_tree /\
  exists k1 tasks1 root1, load (wof "") false (lit "Babfile") (lit "x:tt") = Ok (k1, tasks1, root1) /\
  exists k2 tasks2 root2, load (World grown_tree (lit "/r") fwd go_grow vfwd key_order (fun _ => []) [] (lit "linux") false) false (lit "Babfile") (lit "x:tt") = Ok (k2, tasks2, root2) /\
  (exists n i, declares tasks1 n i (lit "x:tt")) /\ is_Some (tasks2 !! lit "v:w").
Proof.
  split.
  - intros p b1 H. unfold tree, fsof in H. apply elem_of_list_to_map_2 in H.
    repeat (apply elem_of_cons in H as [H|H]; [injection H as -> ->; eexists; split; [vm_compute; reflexivity|]; split; [| |vm_compute; auto]|]); [..|inversion H].
    all: intros n t Hn; apply elem_of_list_to_map_2 in Hn;
      repeat (apply elem_of_cons in Hn as [Hn|Hn]; [injection Hn as -> ->; vm_compute; reflexivity|]); inversion Hn.
  - destruct (load (wof "") false (lit "Babfile") (lit "x:tt")) as [[[k1 tasks1] root1]|e] eqn:E1; [|vm_compute in E1; discriminate E1].
    exists k1, tasks1, root1. split; [reflexivity|].
    destruct (load (World grown_tree (lit "/r") fwd go_grow vfwd key_order (fun _ => []) [] (lit "linux") false) false (lit "Babfile") (lit "x:tt")) as [[[k2 tasks2] root2]|e] eqn:E2; [|vm_compute in E2; discriminate E2].
    exists k2, tasks2, root2. split; [reflexivity|]. split.
    + exists (lit "x:t"), 0.
      assert (H : match load (wof "") false (lit "Babfile") (lit "x:tt") with Ok (_, tasks, _) => match tasks !! lit "x:t" with Some t => bool_decide (t_alias t = lit "x:tt") | None => false end | Err _ => false end = true) by (vm_compute; reflexivity).
      rewrite E1 in H. destruct (tasks1 !! lit "x:t") as [t|] eqn:Et; [|discriminate H]. apply bool_decide_eq_true in H.
      exists t. split; [exact Et|]. split; [rewrite H; reflexivity|discriminate].
    + assert (H : match load (World grown_tree (lit "/r") fwd go_grow vfwd key_order (fun _ => []) [] (lit "linux") false) false (lit "Babfile") (lit "x:tt") with Ok (_, tasks, _) => match tasks !! lit "v:w" with Some t => true | None => false end | Err _ => false end = true) by (vm_compute; reflexivity).
      rewrite E2 in H. destruct (tasks2 !! lit "v:w"); [eauto|discriminate H].
Qed.
