(** Why the conditions of C92 are there: what is not the same when a file is included. *)
From Verif Require Import Base Interp_Model Cond_Model Interp_Spec Interp_Proof Vars_Proof Types_Model Valid_Model Valid_Spec Path_Model Include_Model Include_Proof P_Valid P_Include
  Run_Model Run_Spec Run_Logic Run_Inv Run_Proof Run_Facts Run_Drive P_Run P_Run_Cmd Run_Main P_Run_Parse P_Dry Local_Spec P_Local Mod_Sim Mod_Spec Mod_Vars Mod_Proof P_Mod.

(** ** What the conditions are for *)
(** The library of a project, the file that includes it as [x], and both called from [/r]. *)
Definition two (lib root : schema) : world :=
  World (fsof [("/r/lib/Babfile", lib); ("/r/Babfile", root)]) (lit "/r") fwd go_grow vfwd key_order (fun _ => []) [] (lit "linux") false.
Definition direct lib root name := load (two lib root) false (lit "lib/Babfile") (lit name).
Definition included lib root name := load (two lib root) false (lit "Babfile") (prefixed (lit "x") (lit name)).
Definition includer : schema := file [("x", "lib/Babfile")] [].
Definition kv (l : list (string * string)) : smap := Some (list_to_map (map (fun p => (lit p.1, lit p.2)) l)).
Definition lib_of (vars : smap) (tasks : list (string * task)) : schema := Schema vars None None None [] ∅ (f_tasks (file [] tasks)).
Definition with_vars (v : smap) (t : task) : task :=
  Task (t_name t) (t_line t) (t_deps_line t) (t_source t) (t_desc t) (t_alias t) (t_aliases t) v (t_env t) (t_silent t) (t_output t) (t_dir t) (t_when t) (t_deps t) (t_run t).
Definition with_when (c : string) (t : task) : task :=
  Task (t_name t) (t_line t) (t_deps_line t) (t_source t) (t_desc t) (t_alias t) (t_aliases t) (t_vars t) (t_env t) (t_silent t) (t_output t) (t_dir t) (lit c) (t_deps t) (t_run t).

(** A run of one of them that ends well, and that no run of the other is the same as. *)
Definition unlike (lib root : schema) (name : string) : Prop :=
  includes_it (two lib root) (two lib root) (lit "lib/Babfile") (lit "Babfile") (lit "x") lib root /\
  exists k1 tasks1 root1 k2 tasks2 root2,
  direct lib root name = Ok (k1, tasks1, root1) /\ included lib root name = Ok (k2, tasks2, root2) /\
  ((exists h, run_of k1 tasks1 root1 h (Ret None) /\ forall h' p, run_of k2 tasks2 root2 h' p -> ~ same_history (prefixed (lit "x")) h h') \/
   (exists h', run_of k2 tasks2 root2 h' (Ret None) /\ forall h p, run_of k1 tasks1 root1 h p -> ~ same_history (prefixed (lit "x")) h h')).

Lemma told_in pre h h' ev : same_history pre h h' -> ev ∈ h -> inner ev = false -> exists ev', ev' ∈ h' /\ same_event pre ev ev'.
Proof.
  intros H Hin Hi. assert (X : ev ∈ told h) by (apply elem_of_list_In, filter_In; rewrite Hi; split; [apply elem_of_list_In; exact Hin|reflexivity]).
  apply elem_of_list_lookup in X as (i & X). destruct (Forall2_lookup_l _ _ _ _ _ H X) as (ev' & Y & Z). exists ev'. split; [|exact Z].
  apply elem_of_list_lookup_2, elem_of_list_In, filter_In in Y as [Y _]. apply elem_of_list_In. exact Y.
Qed.
Lemma told_in' pre h h' ev' : same_history pre h h' -> ev' ∈ h' -> inner ev' = false -> exists ev, ev ∈ h /\ same_event pre ev ev'.
Proof.
  intros H Hin Hi. assert (X : ev' ∈ told h') by (apply elem_of_list_In, filter_In; rewrite Hi; split; [apply elem_of_list_In; exact Hin|reflexivity]).
  apply elem_of_list_lookup in X as (i & X). destruct (Forall2_lookup_r _ _ _ _ _ H X) as (ev & Y & Z). exists ev. split; [|exact Z].
  apply elem_of_list_lookup_2, elem_of_list_In, filter_In in Y as [Y _]. apply elem_of_list_In. exact Y.
Qed.

Lemma heap0_kept k tasks rt h : (forall T t, tasks !! T = Some t -> t_vars t <> None) -> good (k_vars k) (step_ok k tasks rt) h -> heap_of (k_vars k) h 0 = k_vars k.
Proof.
  intros Hv. induction h as [|ev h IH]; intros Hg; [reflexivity|]. apply good_tail in Hg as (Hg & Hal & [_ HB]). specialize (IH Hg).
  destruct ev; cbn [heap_of]; try exact IH.
  - cbn in Hal. rewrite decide_False by (rewrite Hal; discriminate). exact IH.
  - destruct (decide (l = 0)) as [->|]; [|exact IH]. exfalso. destruct HB as (t' & i & pr & q & -> & Ht & Hr & _ & Hp & _ & Hw).
    specialize (Hv _ _ Ht). destruct (t_vars t') as [vs|]; [|contradiction (Hv eq_refl)].
    destruct Hw as (m & Hm). apply (alloc_range _ _ _ _ _ _ _ _ Hg) in Hm. lia.
Qed.
Lemma globals_kept k tasks rt h m : (forall T t, tasks !! T = Some t -> t_vars t <> None) -> good (k_vars k) (step_ok k tasks rt) h -> globals_once k h m -> m = k_vars k.
Proof. intros Hv Hg (h' & Hs & ->). eapply heap0_kept; [exact Hv|]. eapply good_suffix; eassumption. Qed.

Definition all_vars (tasks : taskmap) : bool := bool_decide (map_Forall (fun _ t => is_Some (t_vars t)) tasks).
Lemma all_vars_ok tasks : all_vars tasks = true -> forall T t, tasks !! T = Some t -> t_vars t <> None.
Proof. intros H T t Ht E. apply bool_decide_eq_true in H. destruct (H T t Ht) as [v Hv]. cbn in Hv. congruence. Qed.

(** The command that a run starts for [T], in its first item. *)
Definition starts (T c d : string) (ev : event) : bool :=
  match ev with OStart x true => bool_decide (x_task x = lit T /\ x_path x = [0] /\ x_cmd x = lit c /\ x_dir x = lit d) | _ => false end.
Lemma starts_inv T c d ev : starts T c d ev = true -> exists x, ev = OStart x true /\ x_task x = lit T /\ x_path x = [0] /\ x_cmd x = lit c /\ x_dir x = lit d.
Proof. destruct ev as [| | | | | | | | | | | | | |x []| | | | | | | | | | | | | |]; try discriminate. intros H. apply bool_decide_eq_true in H. exists x. auto. Qed.
Definition ended (p : prog) : bool := match p with Ret None => true | _ => false end.
Lemma ended_result p : ended p = true -> result p = Some None.
Proof. destruct p as [[]| |]; try discriminate. reflexivity. Qed.
(** Everything that the tasks and the variables say about the first command of [T], whichever order maps are
    ranged over: it is not started with this command line in this directory. *)
Definition never (k : config) (tasks : taskmap) (T cmd d : str) : bool :=
  match tasks !! T with
  | None => true
  | Some t =>
      match t_when t with [] => false | w => match evaluate (k_getenv k) (k_vars k) w with Ok true => false | _ => true end end ||
      match t_run t, t_vars t with
      | RCmd c :: _, Some vs =>
          forallb (fun order => match resolve_vars (k_getenv k) (Some vs) (Some (k_vars k)) order with
            | Err _ => true
            | Ok m => match interpolate (k_getenv k) m (c_cmd c) with Ok s => negb (bool_decide (s = cmd)) | Err _ => true end ||
                match first_dir (c_dir c) (t_dir t) (k_dir k) with
                | [] => negb (bool_decide (d = dir (t_source t)))
                | d2 => match interpolate (k_getenv k) m d2 with
                        | Err _ => true
                        | Ok d3 => negb (bool_decide (d = clean (if is_abs d3 then d3 else join2 (dir (t_source t)) d3)))
                        end
                end
            end) (permutations (map_to_list vs).*1)
      | _, _ => false
      end
  end.
Lemma never_started k tasks root h x cmd d : all_vars tasks = true -> good (k_vars k) (step_ok k tasks root) h -> started k tasks h x -> x_path x = [0] ->
  x_cmd x = cmd -> x_dir x = d -> never k tasks (x_task x) cmd d = true -> False.
Proof.
  intros Hv Hg [_ _ _ _ (t & c & s & vars & tenv & cenv & order & Ht & (t' & Ht' & Hat & _ & _ & _ & cc & Hc) & _ & _ & Hs & _ & Hi & _ & _ & _ & _ & Hd & _)] Hp <- <- H.
  rewrite Hp in *. rewrite Ht in Ht'. injection Ht' as <-. unfold never in H. rewrite Ht in H. apply orb_prop in H as [H|H].
  - destruct (good_in _ _ _ _ Hg Hc) as (h0 & Hsf & Hg0 & _ & [_ (_ & t2 & Ht2 & _ & _ & _ & [Hw|(g & Hgo & Hev)] & _)]); rewrite Ht in Ht2; injection Ht2 as <-; [rewrite Hw in H; discriminate H|].
    apply (globals_kept _ _ _ _ _ (all_vars_ok _ Hv) Hg0) in Hgo as ->. destruct (t_when t); [discriminate H|]. rewrite Hev in H. discriminate H.
  - cbn in Hat. destruct (t_run t) as [|it rest]; [discriminate Hat|]. injection Hat as ->. pose proof (all_vars_ok _ Hv _ _ Ht) as Hn. unfold sees in Hs.
    destruct (t_vars t) as [vs|] eqn:Ev; [|contradiction (Hn eq_refl)]. cbn [top head default] in Hs. inversion Hs as [vs' gl o l m Hv' Hgo Ho Hres| |]; subst. rewrite Ev in Hv'. injection Hv' as <-.
    apply (globals_kept _ _ _ _ _ (all_vars_ok _ Hv) Hg) in Hgo as ->. rewrite forallb_forall in H.
    assert (Hin : o ∈ permutations (map_to_list vs).*1) by (apply permutations_Permutation; symmetry; exact Ho).
    specialize (H o (proj1 (elem_of_list_In _ _) Hin)). rewrite Hres in H. apply orb_prop in H as [H|H]; [rewrite Hi, bool_decide_true in H by reflexivity; discriminate H|].
    destruct Hd as [[Hd Hd']|[(Hne & d3 & Hd & Hd') _]].
    + rewrite Hd in H. rewrite bool_decide_true in H by exact Hd'. discriminate H.
    + destruct (first_dir (c_dir c) (t_dir t) (k_dir k)); [contradiction (Hne eq_refl)|]. rewrite Hd in H. rewrite bool_decide_true in H by exact Hd'. discriminate H.
Qed.
Lemma unlike_start lib root name T c d l :
  match direct lib root name with Ok (k, tasks, r) => ended (ran k tasks r l).2 && has (starts T c d) (ran k tasks r l).1 | Err _ => false end = true ->
  match included lib root name with Ok (k, tasks, _) => bool_decide (map_Forall (fun n t => t_name t = n) tasks) && all_vars tasks && never k tasks (prefixed (lit "x") (lit T)) (lit c) (lit d) | Err _ => false end = true ->
  includes_it (two lib root) (two lib root) (lit "lib/Babfile") (lit "Babfile") (lit "x") lib root ->
  unlike lib root name.
Proof.
  intros H1 H2 Hi. split; [exact Hi|].
  destruct (direct lib root name) as [[[k1 tasks1] root1]|]; [|discriminate H1]. destruct (included lib root name) as [[[k2 tasks2] root2]|]; [|discriminate H2].
  exists k1, tasks1, root1, k2, tasks2, root2. split; [reflexivity|]. split; [reflexivity|]. left.
  apply andb_prop in H1 as [H1 Hh]. apply ended_result in H1. apply andb_prop in H2 as [H2 Hn]. apply andb_prop in H2 as [Hk Hv]. apply bool_decide_eq_true in Hk.
  eexists. split; [apply finished; exact H1|]. intros h' p Hr Hs. apply has_in in Hh as (ev & Hin & Hev).
  apply starts_inv in Hev as (x & -> & E1 & E2 & E3 & E4).
  destruct (told_in _ _ _ _ Hs Hin eq_refl) as (ev' & Hin' & Hse). destruct ev'; try contradiction Hse. destruct Hse as [(S1 & S2 & S3 & _ & S4 & _) ->].
  destruct (start_facts k2 tasks2 root2 Hk _ _ _ _ Hr Hin') as (past & _ & _ & Hg & Hst).
  eapply (never_started _ _ _ _ _ (lit c) (lit d) Hv Hg Hst); [congruence..|]. rewrite S1, E1. exact Hn.
Qed.
Lemma includes_two lib : includes_it (two lib includer) (two lib includer) (lit "lib/Babfile") (lit "Babfile") (lit "x") lib includer.
Proof. split; [reflexivity|reflexivity|]. eexists. split; reflexivity. Qed.

(** The conditions, decided for the tasks of a list. *)
Definition of_env (n : str) : bool := match strip_prefix (lit "env.") n with Some _ => true | None => false end.
Definition portable_at (fv : gmap str str) (t : task) : bool :=
  forallb of_env (extract_refs (t_when t)) &&
  (forallb (fun it => match it with RPrompt _ => false | _ => true end) (t_run t) || match t_vars t with Some _ => true | None => false end) &&
  forallb (fun xs : str * str => match smap_get (t_vars t) !! xs.1 with Some _ => true | None => forallb (fun n => of_env n || bool_decide (smap_get (t_vars t) !! n = None)) (extract_refs xs.2) end) (map_to_list fv) &&
  forallb (fun it => match it with RPar o _ => bool_decide (q_silent o = None /\ q_output o = None) | _ => true end) (t_run t).
Definition portable_list (fv : gmap str str) (tasks : taskmap) (root : str) (l : list str) : bool :=
  bool_decide (root ∈ l) &&
  forallb (fun n => match tasks !! n with None => true | Some t => forallb (fun m => bool_decide (m ∈ l)) (t_deps t ++ flat_map (fix names it := match it with RTask r => [r_task r] | RPar _ sub => flat_map names sub | _ => [] end) (t_run t)) end) l &&
  forallb (fun n => match tasks !! n with None => true | Some t => portable_at fv t end) l.
Lemma portable_by fv tasks root (l : list str) : portable_list fv tasks root l = true -> portable fv tasks root.
Proof.
  intros Hl. apply andb_prop in Hl as [Hl' Hl]. apply andb_prop in Hl' as [Hroot Hc]. apply bool_decide_eq_true in Hroot. assert (H : forall T t, rtc (edge tasks) root T -> tasks !! T = Some t -> portable_at fv t = true).
  { intros T t HT Ht. apply (closed_from tasks root l Hroot Hc) in HT. rewrite forallb_forall in Hl. specialize (Hl T (proj1 (elem_of_list_In _ _) HT)). rewrite Ht in Hl. exact Hl. }
  clear Hl Hc. split; intros T t.
  - intros ps n HT Ht Hr Hn. specialize (H T t HT Ht). apply andb_prop in H as [H _]. apply andb_prop in H as [H _]. apply andb_prop in H as [H _].
    rewrite forallb_forall in H. specialize (H n (proj1 (elem_of_list_In _ _) (reads_refs_extract _ _ Hr n Hn))). unfold of_env in H. destruct (strip_prefix (lit "env.") n) as [e|] eqn:E; [|discriminate H].
    exists e. apply strip_prefix_Some in E. exact E.
  - intros HT Ht (p & Hp). specialize (H T t HT Ht). apply andb_prop in H as [H _]. apply andb_prop in H as [H _]. apply andb_prop in H as [_ H]. apply orb_prop in H as [H|H].
    + rewrite forallb_forall in H. specialize (H _ (proj1 (elem_of_list_In _ _) Hp)). discriminate H.
    + destruct (t_vars t); [discriminate|discriminate H].
  - intros x s n HT Ht Hx Hn [Hs He]. specialize (H T t HT Ht). apply andb_prop in H as [H _]. apply andb_prop in H as [_ H].
    rewrite forallb_forall in H. specialize (H (x, s) (proj1 (elem_of_list_In _ _) (proj2 (elem_of_map_to_list fv x s) Hx))). cbn [fst snd] in H. rewrite Hn in H.
    rewrite forallb_forall in H. specialize (H n (proj1 (elem_of_list_In _ _) (proj2 (scan_matches_elem s n) Hs))). apply orb_prop in H as [H|H]; [|apply bool_decide_eq_true in H; exact H].
    unfold of_env in H. destruct (strip_prefix (lit "env.") n) as [e|] eqn:E; [|discriminate H]. apply strip_prefix_Some in E. contradiction (He e E).
  - intros i o items HT Ht Hi. specialize (H T t HT Ht). apply andb_prop in H as [_ H]. rewrite forallb_forall in H. specialize (H _ (proj1 (elem_of_list_In _ _) (elem_of_list_lookup_2 _ _ _ Hi))).
    apply bool_decide_eq_true in H. exact H.
Qed.

(** The condition of a whole task: when the file is included it is evaluated with the variables of
    the root file only, and the task fails for an undefined variable. *)
Definition when_lib : schema := lib_of (kv [("a", "1")]) [("t", with_when "${{ a }} == '1'" (mk_task [] [cmd "make"]))].
Theorem C92_when_refuted : no_settings includer /\ unlike when_lib includer "t".
Proof. split; [repeat split|]. apply (unlike_start _ _ _ "t" "make" "/r/lib" [Go [] 60 fine]); [vm_compute; reflexivity..|apply includes_two]. Qed.
Print Assumptions C92_when_refuted.

(** A task without variables of its own that asks: its answer is put into the variables of the file,
    where other tasks find it, and into variables of its own when the file is included. *)
Definition ask_lib : schema := lib_of None [("q", mk_task [] [ask "p"]); ("t", mk_task [lit "q"] [cmd "echo ${{ p }}"])].
Theorem C92_asks_refuted : no_settings includer /\ unlike ask_lib includer "t".
Proof. split; [repeat split|]. apply (unlike_start _ _ _ "t" "echo v" "/r/lib" [Go [] 60 (says (lit "v"))]); [vm_compute; reflexivity..|apply includes_two]. Qed.
Print Assumptions C92_asks_refuted.

(** A task that redefines a variable of its file which another variable of the file is made from: that one keeps
    its value when the file is run directly, and gets another one when the file is included. *)
Definition over_lib : schema := lib_of (kv [("a", "1"); ("b", "${{ a }}")]) [("t", with_vars (kv [("a", "2")]) (mk_task [] [cmd "echo ${{ b }}"]))].
Theorem C92_redefined_refuted : no_settings includer /\ unlike over_lib includer "t".
Proof. split; [repeat split|]. apply (unlike_start _ _ _ "t" "echo 1" "/r/lib" [Go [] 60 fine]); [vm_compute; reflexivity..|apply includes_two]. Qed.
Print Assumptions C92_redefined_refuted.

(** The same behind an escape, which is text and not a reference: an included task fails for a cycle that is not there. *)
Definition escape_lib : schema := lib_of (kv [("a", "$${{ b }}")]) [("t", with_vars (kv [("b", "${{ a }}")]) (mk_task [] [cmd "make"]))].
Theorem C92_escaped_refuted : no_settings includer /\ unlike escape_lib includer "t".
Proof. split; [repeat split|]. apply (unlike_start _ _ _ "t" "make" "/r/lib" [Go [] 60 fine]); [vm_compute; reflexivity..|apply includes_two]. Qed.
Print Assumptions C92_escaped_refuted.

(** The settings of the including file are those of included tasks too: its [dir] is taken from the directory of the included file. *)
Definition dir_lib : schema := lib_of None [("t", mk_task [] [cmd "make"])].
Definition dir_includer : schema := in_dir "sub" includer.
Theorem C92_settings_refuted :
  (forall k tasks root, direct dir_lib dir_includer "t" = Ok (k, tasks, root) -> portable (smap_get (f_vars dir_lib)) tasks root) /\ unlike dir_lib dir_includer "t".
Proof.
  split.
  - intros k tasks root E. assert (H : match direct dir_lib dir_includer "t" with Ok (_, tasks, r) => portable_list (smap_get (f_vars dir_lib)) tasks r [lit "t"] | Err _ => false end = true) by (vm_compute; reflexivity).
    rewrite E in H. apply portable_by in H. exact H.
  - apply (unlike_start _ _ _ "t" "make" "/r/lib" [Go [] 60 fine]); [vm_compute; reflexivity..|]. split; [reflexivity|reflexivity|]. eexists. split; reflexivity.
Qed.
Print Assumptions C92_settings_refuted.

(** [silent] and [output] of a parallel block are left out by includes: an included block prints its commands though it is silent. *)
Definition block : list act := [Do [] (MSlot 0); Go [0] 60 fine; Do [] (MReturn 0); Do [] (MFree 0); Do [] MJoin; Go [] 60 fine].
Definition quiet : run_item := RPar (ParOpts 1 [] [] 0 None (Some true) None [] []) [cmd "make"].
Definition quiet_lib : schema := lib_of None [("t", mk_task [] [quiet])].
Definition echoes (T c : string) (ev : event) : bool := match ev with OEcho n p s _ => bool_decide (n = lit T /\ p = [0; 0] /\ s = lit c) | _ => false end.
Definition quiet_block (tasks : taskmap) : bool :=
  match tasks !! lit "t" with
  | Some t => match t_run t with [RPar o [RCmd c]] => bool_decide (c_silent c = None /\ q_silent o = Some true) | _ => false end
  | None => true
  end.
Theorem C92_blocks_refuted : no_settings includer /\ unlike quiet_lib includer "t".
Proof.
  split; [repeat split|]. split; [apply includes_two|]. set (l := Go [] 60 fine :: block).
  assert (H2 : match included quiet_lib includer "t" with Ok (k, tasks, r) => ended (ran k tasks r l).2 && has (echoes "x:t" "make") (ran k tasks r l).1 | Err _ => false end = true) by (vm_compute; reflexivity).
  assert (H1 : match direct quiet_lib includer "t" with Ok (k, tasks, r) => bool_decide (map_Forall (fun n t => t_name t = n) tasks) && quiet_block tasks | Err _ => false end = true) by (vm_compute; reflexivity).
  destruct (included quiet_lib includer "t") as [[[k2 tasks2] root2]|]; [|discriminate H2].
  destruct (direct quiet_lib includer "t") as [[[k1 tasks1] root1]|]; [|discriminate H1].
  exists k1, tasks1, root1, k2, tasks2, root2. split; [reflexivity|]. split; [reflexivity|]. right.
  apply andb_prop in H2 as [Hf Hh]. apply ended_result in Hf. apply andb_prop in H1 as [Hk Hq]. apply bool_decide_eq_true in Hk. eexists. split; [apply finished; exact Hf|]. intros h p Hr Hs.
  apply has_in in Hh as (ev & Hin & Hev). destruct ev as [| | | | | | | | | | | | |n pa cm d| | | | | | | | | | | | | | |]; try discriminate Hev. apply bool_decide_eq_true in Hev as (-> & -> & ->).
  destruct (told_in' _ _ _ _ Hs Hin eq_refl) as (ev & Hin' & Hse). destruct ev; try contradiction Hse. destruct Hse as (Et & <- & _).
  match type of Hin' with OEcho ?T _ _ _ ∈ _ => assert (ET : T = lit "t") by (apply (pre_inj (lit "x")); symmetry; exact Et); subst T end. clear Et.
  pose proof (run_good k1 tasks1 root1 Hk _ _ Hr) as Hg.
  destruct (good_in _ _ _ _ Hg Hin') as (h0 & _ & _ & _ & [_ (_ & _ & _ & t & c & s & sc & vars & Ht & (t' & Ht' & Hat & _) & _ & Hsc & _ & _ & Hsi)]).
  rewrite Ht in Ht'. injection Ht' as <-. unfold quiet_block in Hq. rewrite Ht in Hq. destruct Hat as (o' & items' & Hi' & Hat). destruct Hsc as (o & items & Hi & ->).
  destruct (t_run t) as [|[| | | |oo its] rest]; try discriminate Hq. destruct its as [|[cc| | | |] its']; try discriminate Hq. destruct its'; [|discriminate Hq]. destruct rest; [|discriminate Hq].
  injection Hi as <- <-. injection Hi' as <- <-. injection Hat as <-. apply bool_decide_eq_true in Hq as [Q1 Q2].
  rewrite Q1 in Hsi. unfold override_silent in Hsi. cbn [override] in Hsi. rewrite Q2 in Hsi. discriminate Hsi.
Qed.
Print Assumptions C92_blocks_refuted.

(** ** A library that meets the conditions *)
(** It has variables, an environment and a directory, a task that asks, with variables of its own, a condition on the
    environment, a dependency and a parallel block, and it includes a file itself. *)
Definition rich_task : task :=
  Task [] 1 1 [] [] (lit "d") [] (kv [("target", "${{ name }}-x")]) (kv [("T", "1")]) None None [] (lit "${{ env.HOME }}") [lit "prep"] [ask "where"; par 0 [ref "y:z"; cmd "echo ${{ target }} ${{ where }}"]].
Definition rich_lib : schema :=
  Schema (kv [("name", "n"); ("full", "${{ name }}!")]) (kv [("E", "${{ full }}")]) (Some false) None (lit ".") (list_to_map [(lit "y", lit "../y.yml")]) (f_tasks (file [] [("deploy", rich_task); ("prep", mk_task [] [note "hi"])])).
Definition rich_root : schema := file [("x", "lib/Babfile"); ("w", "y.yml")] [("all", mk_task [lit "x:deploy"] [])].
Definition rich_world : world :=
  World (fsof [("/r/lib/Babfile", rich_lib); ("/r/Babfile", rich_root); ("/r/y.yml", file [] [("z", mk_task [] [cmd "make"])])])
    (lit "/r") fwd go_grow vfwd key_order (fun _ => lit "/h") [] (lit "linux") false.
Definition rich_script : list act :=
  [Go [] 90 (says (lit "eu")); Do [] (MSlot 1); Do [] (MSlot 0); Go [1] 60 fine; Do [] (MReturn 1); Go [0] 60 fine; Do [] (MReturn 0); Do [] (MFree 0); Do [] (MFree 1); Do [] MJoin; Go [] 60 fine].
Definition prints (c : string) (ev : event) : bool := match ev with OStart x true => bool_decide (x_cmd x = lit c) | _ => false end.

Lemma nul_free_by (s : str) : forallb (fun c => negb (Ascii.eqb c "000")) s = true -> nul_free s.
Proof.
  intros H. rewrite forallb_forall in H. intros Hin. specialize (H _ (proj1 (elem_of_list_In _ _) Hin)). discriminate H.
Qed.
Definition nul_free_vars (m : gmap str str) : bool := forallb (fun p : str * str => forallb (fun c => negb (Ascii.eqb c "000")) p.2) (map_to_list m).
Lemma nul_free_vars_ok m : nul_free_vars m = true -> all_nul_free m.
Proof.
  intros H n v Hm. unfold nul_free_vars in H. rewrite forallb_forall in H. apply nul_free_by. apply elem_of_map_to_list in Hm. exact (H (n, v) (proj1 (elem_of_list_In _ _) Hm)).
Qed.

Definition rich_check (k : config) (tasks : taskmap) (r : str) : bool :=
  match tasks !! lit "deploy" with Some t => bool_decide (t_alias t = lit "d") | None => false end &&
  forallb (fun p : str * task => nul_free_vars (smap_get (t_vars p.2))) (map_to_list tasks) &&
  portable_list (smap_get (f_vars rich_lib)) tasks r [lit "deploy"; lit "prep"; lit "y:z"] &&
  ended (ran k tasks r rich_script).2 && has (prints "echo n-x eu") (ran k tasks r rich_script).1 && has (prints "make") (ran k tasks r rich_script).1.

Example C92_met : world_ok rich_world /\ includes_it rich_world rich_world (lit "lib/Babfile") (lit "Babfile") (lit "x") rich_lib rich_root /\ no_settings rich_root /\
  (forall m, iteration_order m (w_order rich_world m)) /\ (forall x, nul_free (w_getenv rich_world x)) /\ all_nul_free (smap_get (f_vars rich_lib)) /\
  exists k1 tasks1 root1 k2 tasks2 root2, load rich_world false (lit "lib/Babfile") (lit "d") = Ok (k1, tasks1, root1) /\
  load rich_world false (lit "Babfile") (prefixed (lit "x") (lit "d")) = Ok (k2, tasks2, root2) /\
  (exists n i, declares tasks1 n i (lit "d")) /\ (forall T t, tasks1 !! T = Some t -> all_nul_free (smap_get (t_vars t))) /\
  portable (smap_get (f_vars rich_lib)) tasks1 root1 /\
  exists h, run_of k1 tasks1 root1 h (Ret None) /\ exists ev ev', ev ∈ h /\ prints "echo n-x eu" ev = true /\ ev' ∈ h /\ prints "make" ev' = true.
Proof.
  split; [split; [exact fwd_ok|exact vfwd_ok]|]. split; [split; [reflexivity|reflexivity|]; eexists; split; reflexivity|]. split; [repeat split|].
  split; [intros m; unfold iteration_order; reflexivity|]. split; [intros x; apply nul_free_by; reflexivity|]. split; [apply nul_free_vars_ok; vm_compute; reflexivity|].
  assert (H1 : match load rich_world false (lit "lib/Babfile") (lit "d") with Ok (k, tasks, r) => rich_check k tasks r | Err _ => false end = true) by (vm_compute; reflexivity).
  assert (H2 : match load rich_world false (lit "Babfile") (prefixed (lit "x") (lit "d")) with Ok _ => true | Err _ => false end = true) by (vm_compute; reflexivity).
  destruct (load rich_world false (lit "lib/Babfile") (lit "d")) as [[[k1 tasks1] root1]|e]; [|discriminate H1].
  destruct (load rich_world false (lit "Babfile") (prefixed (lit "x") (lit "d"))) as [[[k2 tasks2] root2]|e]; [|discriminate H2].
  exists k1, tasks1, root1, k2, tasks2, root2. split; [reflexivity|]. split; [reflexivity|]. clear H2.
  unfold rich_check in H1. apply andb_prop in H1 as [H1 B6]. apply andb_prop in H1 as [H1 B5]. apply andb_prop in H1 as [H1 B4]. apply andb_prop in H1 as [H1 B3]. apply andb_prop in H1 as [B1 B2].
  split; [|split; [|split]].
  - destruct (tasks1 !! lit "deploy") as [t|] eqn:Et; [|discriminate B1]. apply bool_decide_eq_true in B1. exists (lit "deploy"), 0, t. split; [exact Et|]. split; [rewrite B1; reflexivity|discriminate].
  - intros T t Ht. apply nul_free_vars_ok. rewrite forallb_forall in B2. apply elem_of_map_to_list in Ht. exact (B2 (T, t) (proj1 (elem_of_list_In _ _) Ht)).
  - apply portable_by in B3. exact B3.
  - exists (ran k1 tasks1 root1 rich_script).1. split; [apply finished; apply ended_result; exact B4|].
    apply has_in in B5 as (ev & H1 & H3). apply has_in in B6 as (ev' & H2 & H4). exists ev, ev'. auto.
Qed.
