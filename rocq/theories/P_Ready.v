(** C88: what a Babfile that was accepted can still fail for when one of its tasks is run. *)
From Verif Require Import Base Interp_Model Interp_Spec Cond_Model Types_Model Valid_Model Valid_Spec Path_Model Path_Proof Include_Model Include_Spec
  Include_Proof P_Valid P_Include Doc_Model Doc_Spec Doc_Example P_Doc Run_Model Run_Logic Run_Inv Run_Proof Run_Facts Run_Drive P_Run P_Run_Cmd Run_Main P_Run_Parse P_Dry P_Apart.
From Verif Require Run_Spec Run_Apart.
Import Run_Apart (apart).

(** ** Vocabulary of the statements *)

(** The reasons that are left, and what they say about the tasks. *)
Inductive left_to_run_time (k : config) (tasks : taskmap) (h : hist) : rerr -> Prop :=
| lt_command T cmd : left_to_run_time k tasks h (RCmdFailed T cmd)
| lt_question T v : left_to_run_time k tasks h (RPromptErr T v)
| lt_directory T d : left_to_run_time k tasks h (RDirStat T d)
| lt_screen : left_to_run_time k tasks h RTui
| lt_interrupted T i c : OCheck T i c true ∈ h -> left_to_run_time k tasks h RCancelled
(* a text of a task or an item mentions a variable that is not there *)
| lt_task_when T t vars e : tasks !! T = Some t -> evaluate (k_getenv k) vars (t_when t) = Err e -> left_to_run_time k tasks h (RTaskWhen T (t_line t) e)
| lt_item_when T t i it vars e : tasks !! T = Some t -> t_run t !! i = Some it -> evaluate (k_getenv k) vars (item_when it) = Err e -> left_to_run_time k tasks h (RItemWhen T i (item_line it) e)
| lt_vars T t vs globals order e : tasks !! T = Some t -> t_vars t = Some vs -> resolve_vars (k_getenv k) (Some vs) (Some globals) order = Err e -> left_to_run_time k tasks h (RVars (t_line t) e)
| lt_env vars s ln e : interpolate (k_getenv k) vars s = Err e -> left_to_run_time k tasks h (REnv ln e)
| lt_text vars s ln e : interpolate (k_getenv k) vars s = Err e -> left_to_run_time k tasks h (RInterp ln e)
| lt_dir T vars s ln e : interpolate (k_getenv k) vars s = Err e -> left_to_run_time k tasks h (RDirInterp T ln e)
(* no item is for this platform *)
| lt_platform T t : tasks !! T = Some t -> t_run t <> [] -> Forall (fun it => item_platforms it <> [] /\ k_os k ∉ item_platforms it) (t_run t) ->
    left_to_run_time k tasks h (RNoItems T)
(* a command of blanks *)
| lt_blank T t c : tasks !! T = Some t -> P_Doc.occurs (RCmd c) (t_run t) -> c_cmd c <> [] -> trim_space (c_cmd c) = [] -> left_to_run_time k tasks h (REmptyCmd T)
(* two items of a block lead to the same task *)
| lt_shared c : ~ apart tasks -> left_to_run_time k tasks h (RCircular c).

(** ** The theorem *)
Lemma item_at_occurs t pa it : Run_Spec.item_at t pa it -> P_Doc.occurs it (t_run t).
Proof.
  destruct pa as [|i [|j [|? ?]]]; simpl; try contradiction.
  - intros H. apply occurs_here. eapply elem_of_list_lookup_2. exact H.
  - intros (o & items & H1 & H2). eapply occurs_in; [eapply elem_of_list_lookup_2; exact H1|]. apply occurs_here. eapply elem_of_list_lookup_2. exact H2.
Qed.

Section C88.
  Context (Y : yaml) (files : gmap str str) (w : world) (Hw : world_ok w) (Hfs : w_fs w = decoded Y files).
  Context (dry : bool) (path name : str) (k : config) (tasks : taskmap) (root : str).
  Context (Hl : load w dry path name = Ok (k, tasks, root)).

  Lemma load_acyclic : ~ cyclic tasks.
  Proof.
    destruct (load_inv _ _ _ _ _ _ _ Hl) as (r & vars & Hp & _ & _ & -> & _). apply parse_Ok in Hp as [_ Hp].
    apply C08_accepted_iff_well_formed in Hp; [apply Hp|apply Hw].
  Qed.
  Lemma load_well_formed T t it : tasks !! T = Some t -> P_Doc.occurs it (t_run t) -> well_formed (fun s => y_regexp Y s = true) it.
  Proof.
    intros Ht Hin. destruct (load_inv _ _ _ _ _ _ _ Hl) as (r & vars & Hp & _ & _ & E & _). rewrite Hfs in Hp. rewrite E in Ht.
    eapply C56_items_well_formed; [apply Hw|apply Hw|exact Hp|exact Ht|exact Hin].
  Qed.

  (** The file was accepted, and the name given is a task or an alias of one. *)
  Theorem C88_accepted_fails_for h e : is_Some (tasks !! name) \/ (exists n i, declares tasks n i name) ->
    run_of k tasks root h (Ret (Some e)) -> left_to_run_time k tasks h (Run_Spec.reason e).
  Proof.
    intros Hname Hr. pose proof (load_keyed _ Hw _ _ _ _ _ _ Hl) as Hk.
    destruct (C35_known_name_never_unknown w Hw dry path name k tasks root Hl h _ Hname Hr) as (_ & _ & Hun).
    pose proof (C62_failure_has_a_cause k tasks root h e Hk Hr) as He. pose proof (run_good k tasks root Hk _ _ Hr) as Hg. unfold err_ok in He.
    destruct (Run_Spec.reason e) as [ |n|c|T ln e0|T i ln e0|ln e0|ln e0|ln e0|T|T ln e0|T d|T cmd|T v| |T| |n| |? ?|? ?|? ?] eqn:Er; try contradiction.
    - destruct (Hun e n eq_refl) as [H _]. congruence.
    - apply lt_shared. intros Ha. apply load_acyclic. eapply (C29_independent_items_partial k tasks root Hk); [exact Ha|exact Hr|exact Er].
    - destruct He as (t & gl & Ht & -> & _ & _ & H). eapply lt_task_when; eassumption.
    - destruct He as (t & it & vars & Ht & Hit & -> & _ & _ & _ & H). eapply lt_item_when; eassumption.
    - destruct He as (T & t & vs & gl & od & Ht & -> & _ & Evs & _ & _ & H). eapply lt_vars; eassumption.
    - destruct He as (T & t & vars & env & key & v & _ & _ & _ & H). eapply lt_env; eassumption.
    - destruct He as (T & t & pa & it & s & vars & _ & _ & _ & _ & _ & H). eapply lt_text; eassumption.
    - destruct He as (pa & c & (t & Ht & Hat & _) & Hem). pose proof (load_well_formed _ _ _ Ht (item_at_occurs _ _ _ Hat)) as Hwf. inversion Hwf; subst.
      eapply lt_blank; [exact Ht|eapply item_at_occurs; exact Hat|assumption|exact Hem].
    - destruct He as (t & pa & c & vars & _ & _ & _ & _ & H). eapply lt_dir; eassumption.
    - constructor.
    - constructor.
    - constructor.
    - destruct He as (T & i & c & H). eapply lt_interrupted; exact H.
    - destruct He as (t & Ht & (_ & _ & _ & Hne) & Hall). eapply lt_platform; [exact Ht|exact Hne|]. apply Forall_lookup. intros i it Hit. specialize (Hall _ _ Hit).
      destruct (good_in _ _ _ _ Hg Hall) as (h0 & _ & _ & _ & [_ (t' & i' & it' & Ep & Ht' & Hi' & _ & _ & _ & _ & Hp)]). injection Ep as <-.
      assert (t' = t) as -> by congruence. assert (it' = it) as -> by congruence. unfold matches_platform in Hp. destruct (item_platforms it) as [|p ps]; [discriminate Hp|].
      split; [discriminate|]. apply bool_decide_eq_false in Hp. exact Hp.
    - destruct He as (T & i & j & it & (t & Ht & Hat & _) & Hit). exfalso. simpl in Hat. destruct Hat as (o & items & H1 & H2).
      assert (Hin : P_Doc.occurs (RPar o items) (t_run t)) by (apply occurs_here; eapply elem_of_list_lookup_2; exact H1).
      pose proof (load_well_formed _ _ _ Ht Hin) as Hwf. inversion Hwf as [| | | |? ? _ _ _ _ _ Hs _]; subst. rewrite Forall_lookup in Hs. specialize (Hs _ _ H2). destruct it; contradiction.
    - destruct (Hun e n eq_refl) as [_ H]. congruence.
    - constructor.
  Qed.
End C88.
Print Assumptions C88_accepted_fails_for.

(** ** Cases *)
(** A file whose first task has a command of one blank, the second an item for another
    platform only, and the third mentions a variable that is not there. *)
Definition careless : node := mp 1 [kv 1 "tasks" (mp 2 [
  kv 2 "blank" (mp 3 [kv 3 "run" (seq 4 [mp 4 [kv 4 "cmd" (sc 4 " ")]])]);
  kv 5 "other" (mp 6 [kv 6 "run" (seq 7 [mp 7 [kv 7 "cmd" (sc 7 "make"); kv 8 "platforms" (seq 8 [sc 8 "darwin"])]])]);
  kv 9 "all" (mp 10 [kv 10 "deps" (seq 10 [sc 10 "lib"]); kv 11 "run" (seq 12 [mp 12 [kv 12 "cmd" (sc 12 "echo ${{ nobody }}")]])]);
  kv 13 "lib" (mp 14 [kv 14 "run" (seq 15 [mp 15 [kv 15 "cmd" (sc 15 "make lib")]])])])].
Definition Yc : yaml := Y2 careless careless.
Definition cfiles : gmap str str := {[lit "/r/Babfile" := lit "a"]}.
Definition cworld : world := World (decoded Yc cfiles) (lit "/r") fwd go_grow vfwd key_order (fun _ => []) [] (lit "linux") false.
Definition cstart (name : string) (a : answers) : option (hist * prog * bool) :=
  match load cworld false (lit "Babfile") (lit name) with
  | Ok (k, tasks, root) => Some (ran k tasks root [Go [] 60 a], bool_decide (is_Some (tasks !! lit name)))
  | Err _ => None
  end.
Lemma cworld_ok : world_ok cworld.
Proof. split; [exact fwd_ok|exact vfwd_ok]. Qed.
Definition ends_with (name : string) (a : answers) : option (option rerr) :=
  match cstart name a with Some (x, true) => result x.2 | _ => None end.
Example C88_met :
  ends_with "blank" fine = Some (Some (REmptyCmd (lit "blank"))) /\
  ends_with "other" fine = Some (Some (RNoItems (lit "other"))) /\
  ends_with "all" fine = Some (Some (RInterp 12 (EVarNotFound (lit "nobody")))) /\
  ends_with "all" failing = Some (Some (RDep (lit "lib") (RCmdFailed (lit "lib") (lit "make lib")))) /\
  ends_with "lib" fine = Some None.
Proof. vm_compute. auto 10. Qed.
(** A file is accepted though one of its commands can never be run: the parser asks for a
    text that is not empty, the runner for one that is not blank. *)
Theorem C88_checked_before_refuted : exists Y files w path name k tasks root h T t c, world_ok w /\ w_fs w = decoded Y files /\
  load w false path name = Ok (k, tasks, root) /\ is_Some (tasks !! name) /\ run_of k tasks root h (Ret (Some (REmptyCmd T))) /\
  tasks !! T = Some t /\ t_run t = [RCmd c] /\ c_cmd c = lit " ".
Proof.
  exists Yc, cfiles, cworld, (lit "Babfile"), (lit "blank").
  destruct (load cworld false (lit "Babfile") (lit "blank")) as [[[k tasks] root]|e] eqn:E; [|vm_compute in E; discriminate E].
  set (h := (ran k tasks root [Go [] 60 fine]).1).
  assert (Hc : match load cworld false (lit "Babfile") (lit "blank") with Ok (k, tasks, root) =>
      result (ran k tasks root [Go [] 60 fine]).2 = Some (Some (REmptyCmd (lit "blank"))) /\ exists t c, tasks !! lit "blank" = Some t /\ t_run t = [RCmd c] /\ c_cmd c = lit " " | _ => False end).
  { vm_compute. split; [reflexivity|]. eexists _, _. auto. }
  rewrite E in Hc. destruct Hc as (H1 & t & c & H2 & H3 & H4). exists k, tasks, root, h, (lit "blank"), t, c.
  split; [exact cworld_ok|]. split; [reflexivity|]. split; [reflexivity|]. split; [eauto|]. split; [|auto].
  apply finished. exact H1.
Qed.
Print Assumptions C88_checked_before_refuted.
