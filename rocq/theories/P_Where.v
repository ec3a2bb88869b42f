(** C93: an error about a variable at run time names the line of the text with the problem. *)
From Verif Require Import Base Types_Model Interp_Model Interp_Spec Interp_Proof Vars_Proof Cond_Model Run_Model Run_Logic Run_Spec Run_Inv Run_Proof Run_Facts Run_Drive.
From Verif Require Import Include_Proof P_Interp P_Cond P_Run P_Run_Cmd P_Run_Parse P_Dry.
From Verif Require Import Where_Spec.

Lemma claimed_by_check k tasks root h T i c b : good (k_vars k) (step_ok k tasks root) h -> OCheck T i c b ∈ h -> exists s, OClaim T s Fresh ∈ h.
Proof.
  intros Hg Hc. destruct (good_in _ _ _ _ Hg Hc) as (h0 & Hs & Hg0 & Hal & HG).
  destruct (act_claim k tasks root (OCheck T i c b) h0 (T, [i], false)) as (s & Hcl); [constructor; assumption|reflexivity|].
  exists s. eapply suffix_elem; [etransitivity; [apply suffix_cons_self|exact Hs]|exact Hcl].
Qed.
Lemma undefined_refers getenv vars s e : interpolate getenv vars s = Err e -> exists x, e = EVarNotFound x /\ refers s x /\ undefined_ref vars x.
Proof.
  intros H. apply C02_error_is_leftmost_undefined in H as (ps & pre & n & post & H1 & H2 & H3 & _ & ->).
  exists n. split; [reflexivity|]. split; [|exact H3]. exists ps. split; [exact H1|]. rewrite H2. set_solver.
Qed.
Lemma undefined_when getenv vars s e : evaluate getenv vars s = Err e -> exists x, e = EVarNotFound x /\ refers s x /\ undefined_ref vars x.
Proof.
  intros H. apply C07_undefined_is_error in H as (ps & pre & n & post & H1 & H2 & H3 & _ & ->).
  exists n. split; [reflexivity|]. split; [|exact H3]. exists ps. split; [exact H1|]. rewrite H2. set_solver.
Qed.
Lemma env_text_merged k t key v : smap_get (merge_maps (k_env k) (t_env t)) !! key = Some v <-> env_text k t key v.
Proof.
  rewrite merge_maps_get. unfold env_text. destruct (smap_get (t_env t) !! key) as [w|]; split.
  - auto.
  - intros [H|[H _]]; [exact H|discriminate H].
  - auto.
  - intros [H|[_ H]]; [discriminate H|exact H].
Qed.

Section C93.
  Context (k : config) (tasks : taskmap) (root : str) (Hk : keyed tasks).

  (** A run that fails because of a variable ran a task [T]. If a variable is missing, then the
      line the error gives is that of a text of [T], or of an item of [T], which refers to the
      variable while it is not defined; or the text was filled in a second time. If variables refer
      to each other in a circle, they are variables of [T], and the line is that of [T]. *)
  Theorem C93_line_partial h e line what : run_of k tasks root h (Ret (Some e)) -> reports_at e line what ->
    exists T t, tasks !! T = Some t /\ (exists s, OClaim T s Fresh ∈ h) /\
      ((exists x s, what = EVarNotFound x /\ refers s x /\ (written k h t x line s \/ filled_twice k h t x line s)) \/
       (exists c vs, what = EVarCycle c /\ t_vars t = Some vs /\ closes (mentions vs) c /\ line = t_line t)).
  Proof.
    intros Hr Ht. pose proof (C62_failure_has_a_cause k tasks root h e Hk Hr) as He. pose proof (run_good k tasks root Hk _ _ Hr) as Hg.
    unfold reports_at in Ht. unfold err_ok in He.
    destruct (Run_Spec.reason e) as [ |n|c|T ln e0|T i ln e0|ln e0|ln e0|ln e0|T|T ln e0|T d|T cmd|T v| |T| |n| |? ?|? ?|? ?] eqn:Er; try contradiction Ht; destruct Ht as [-> ->].
    - destruct He as (t & gl & Htk & -> & Hcl & Hgl & H). apply undefined_when in H as (x & -> & Hx & Hu).
      exists T, t. split; [exact Htk|]. split; [exact Hcl|]. left. exists x, (t_when t). split; [reflexivity|]. split; [exact Hx|]. left. eapply wr_when; eassumption.
    - destruct He as (t & it & vars & Htk & Hit & -> & (c & Hc) & _ & Hsee & H). apply undefined_when in H as (x & -> & Hx & Hu).
      exists T, t. split; [exact Htk|]. split; [eapply claimed_by_check; eassumption|]. left. exists x, (item_when it). split; [reflexivity|]. split; [exact Hx|]. left.
      replace (item_line it) with (line_of it) by (destruct it; reflexivity). eapply (wr_item _ _ _ _ [i]); [exact Hit| |exact Hsee|exact Hu].
      pose proof (ti_when k t it) as Hw. destruct it; exact Hw.
    - destruct He as (T & t & vs & gl & od & Htk & -> & (Hcl & _) & Hvs & Hgl & Hod & H). exists T, t. split; [exact Htk|]. split; [exact Hcl|].
      apply C05_errors_are_genuine in H; [|exact Hod]. destruct e0 as [x|c|]; [| |contradiction H].
      + destruct H as (key & raw & ps & H1 & H2 & H3 & H4 & H5 & H6). left. exists x, raw. split; [reflexivity|]. split; [exists ps; split; assumption|].
        left. eapply wr_vars; [exact Hvs|exact H1|exact Hgl|split; assumption..].
      + right. exists c, vs. split; [reflexivity|]. split; [exact Hvs|]. split; [exact H|reflexivity].
    - destruct He as (T & t & vars & env & key & v & Htk & Hwhere & Hkey & H). apply undefined_refers in H as (x & -> & Hx & Hu). exists T, t. split; [exact Htk|].
      destruct Hwhere as [(-> & (Hcl & _) & Hsee & ->)|(pa & c & tenv & -> & (t' & Ht' & Hat & _ & _ & _ & (ch & Hc)) & Hsee & (vars0 & Hsee0 & Hte) & ->)].
      + split; [exact Hcl|]. left. exists x, v. split; [reflexivity|]. split; [exact Hx|]. left. apply env_text_merged in Hkey. eapply wr_env; eassumption.
      + assert (t' = t) as -> by congruence. split; [eapply claimed_by_check; eassumption|]. left. exists x, v. split; [reflexivity|]. split; [exact Hx|].
        rewrite merge_maps_get in Hkey. destruct (smap_get (c_env c) !! key) as [w|] eqn:Ec.
        * injection Hkey as ->. left. eapply (wr_item _ _ _ _ pa (RCmd c)); [exact Hat|eapply ti_env; exact Ec|exact Hsee|exact Hu].
        * right. cbn in Hkey. apply (interp_env_get _ _ _ _ key) in Hte. rewrite Hkey in Hte.
          destruct (smap_get (merge_maps (k_env k) (t_env t)) !! key) as [v0|] eqn:E0; [|discriminate Hte].
          destruct Hte as (w & Hw & Ew). injection Ew as ->. apply env_text_merged in E0. eapply ft; eassumption.
    - destruct He as (T & t & pa & it & s & vars & Htk & (t' & Ht' & Hat & _ & _ & _ & (ch & Hc)) & -> & Hin & Hsee & H). assert (t' = t) as -> by congruence.
      apply undefined_refers in H as (x & -> & Hx & Hu). exists T, t. split; [exact Htk|]. split; [eapply claimed_by_check; eassumption|]. left. exists x, s.
      split; [reflexivity|]. split; [exact Hx|]. left. replace (item_line it) with (line_of it) by (destruct it; reflexivity).
      eapply (wr_item _ _ _ _ pa); [exact Hat| |exact Hsee|exact Hu].
      destruct it; cbn [item_strings] in Hin; try (inversion Hin; fail); [apply elem_of_list_singleton in Hin; subst s; constructor..|apply ti_prompt; exact Hin].
    - destruct He as (t & pa & c & vars & Htk & (t' & Ht' & Hat & _ & _ & _ & (ch & Hc)) & -> & Hsee & H). assert (t' = t) as -> by congruence.
      apply undefined_refers in H as (x & -> & Hx & Hu). exists T, t. split; [exact Htk|]. split; [eapply claimed_by_check; eassumption|]. left.
      eexists x, _. split; [reflexivity|]. split; [exact Hx|]. left. eapply (wr_item _ _ _ _ pa (RCmd c)); [exact Hat| |exact Hsee|exact Hu].
      pose proof (ti_dir k t c) as Hd. unfold first_dir. destruct (c_dir c); [destruct (t_dir t)|]; exact Hd.
  Qed.

  (** A task with no environment has no text that is filled in twice. *)
  Theorem C93_line h e line what : (forall T t, tasks !! T = Some t -> smap_get (k_env k) = ∅ /\ smap_get (t_env t) = ∅) ->
    run_of k tasks root h (Ret (Some e)) -> reports_at e line what ->
    exists T t, tasks !! T = Some t /\ (exists s, OClaim T s Fresh ∈ h) /\
      ((exists x s, what = EVarNotFound x /\ refers s x /\ written k h t x line s) \/
       (exists c vs, what = EVarCycle c /\ t_vars t = Some vs /\ closes (mentions vs) c /\ line = t_line t)).
  Proof.
    intros Henv Hr Ht. destruct (C93_line_partial h e line what Hr Ht) as (T & t & Htk & Hcl & [(x & s & Hw & Hx & [H|H])|H]); exists T, t; split; [exact Htk| |exact Htk| |exact Htk|]; (split; [exact Hcl|]).
    - left. eauto.
    - exfalso. destruct (Henv _ _ Htk) as [E1 E2]. inversion H as [? ? ? ? ? ? ? _ _ Hv]; subst. unfold env_text in Hv. rewrite E1, E2, !lookup_empty in Hv.
      destruct Hv as [Hv|[_ Hv]]; discriminate Hv.
    - right. exact H.
  Qed.
End C93.
Print Assumptions C93_line_partial. Print Assumptions C93_line.

(** ** Cases *)
From Verif Require Import Valid_Model Path_Model Include_Model P_Include Doc_Model Doc_Example Run_Main Loc_Model Msg_Model Doc_Errors P_Place Where_Spec.
(** A file in which every task fails for another text. *)
Definition faulty_doc : node := mp 1 [kv 1 "env" (mp 2 [kv 2 "HOST" (sc 2 "${{ host }}")]); kv 3 "vars" (mp 4 [kv 4 "host" (sc 4 "h")]); kv 5 "tasks" (mp 6 [
  kv 6 "when" (mp 7 [kv 7 "when" (sc 7 "${{ w }}"); kv 8 "run" (seq 8 [mp 8 [kv 8 "cmd" (sc 8 "make")]])]);
  kv 10 "vars" (mp 11 [kv 11 "vars" (mp 12 [kv 12 "a" (sc 12 "${{ b }}"); kv 13 "b" (sc 13 "${{ c }}")]); kv 14 "run" (seq 14 [mp 14 [kv 14 "cmd" (sc 14 "make")]])]);
  kv 20 "round" (mp 21 [kv 21 "vars" (mp 22 [kv 22 "a" (sc 22 "${{ a }}")]); kv 24 "run" (seq 24 [mp 24 [kv 24 "cmd" (sc 24 "make")]])]);
  kv 30 "env" (mp 31 [kv 31 "env" (mp 32 [kv 32 "E" (sc 32 "${{ e }}")]); kv 34 "run" (seq 34 [mp 34 [kv 34 "cmd" (sc 34 "make")]])]);
  kv 40 "items" (mp 41 [kv 41 "run" (seq 42 [
     mp 42 [kv 42 "cmd" (sc 42 "make")]; mp 43 [kv 43 "parallel" (seq 44 [mp 44 [kv 44 "cmd" (sc 44 "make")]; mp 45 [kv 45 "log" (sc 45 "${{ t }}")]])]])]);
  kv 50 "dir" (mp 51 [kv 51 "dir" (sc 51 "${{ d }}"); kv 52 "deps" (seq 52 [sc 52 "ok"]); kv 53 "run" (seq 54 [mp 54 [kv 54 "cmd" (sc 54 "make")]])]);
  kv 60 "ok" (mp 61 [kv 61 "run" (seq 62 [mp 62 [kv 62 "cmd" (sc 62 "make"); kv 63 "env" (mp 64 [kv 64 "A" (sc 64 "$${{ no }}")])]])])])].
Definition faulty_world : world := World (decoded (Y2 faulty_doc faulty_doc) {[lit "/r/Babfile" := lit "a"]}) (lit "/r") fwd go_grow vfwd key_order (fun _ => []) [] (lit "linux") false.
Definition faulty (name : string) (moves : list act) : option (option (nat * ierr)) :=
  match load faulty_world false (lit "Babfile") (lit name) with
  | Ok (k, tasks, root) =>
      match result (ran k tasks root moves).2 with
      | Some (Some e) => match reason e with RTaskWhen _ l x | RItemWhen _ _ l x | RVars l x | REnv l x | RInterp l x | RDirInterp _ l x => Some (Some (l, x)) | _ => None end
      | Some None => Some None
      | None => None
      end
  | Err _ => None
  end.
Definition block_moves : list act := Go [] 200 fine :: flat_map (fun j => [Do [] (MSlot j); Go [j] 200 fine; Do [] (MReturn j); Do [] (MFree j)]) [1; 0] ++ [Do [] MJoin; Go [] 60 fine].
Example C93_met :
  faulty "when" [Go [] 60 fine] = Some (Some (6, EVarNotFound (lit "w"))) /\
  faulty "vars" [Go [] 60 fine] = Some (Some (10, EVarNotFound (lit "c"))) /\
  faulty "round" [Go [] 60 fine] = Some (Some (20, EVarCycle [lit "a"; lit "a"])) /\
  faulty "env" [Go [] 60 fine] = Some (Some (30, EVarNotFound (lit "e"))) /\
  faulty "items" block_moves = Some (Some (45, EVarNotFound (lit "t"))) /\
  faulty "dir" [Go [] 90 fine] = Some (Some (54, EVarNotFound (lit "d"))) /\
  faulty "ok" [Go [] 60 fine] = Some None.
Proof. vm_compute. auto 10. Qed.

(** ** What does not hold *)
(** A text may be filled in twice. Here a variable says with [$${{] that it means no reference, and
    still a command fails for want of that variable, which no text refers to. *)
Definition quoting : taskmap := tm [Task (lit "build") 1 1 (lit "/w/Babfile") [] [] [] None (Some {[lit "NAME" := lit "${{ name }}"]}) None None [] [] [] [cmd "make"]].
Definition quoting_conf : config := Config false {[lit "name" := lit "${{ pw }}"]} None None None [] (fun _ => []) [] (lit "linux") false.
Definition quoting_run := ran quoting_conf quoting (lit "build") [Go [] 60 fine].
Lemma refers_not s x : bool_decide (x ∈ extract_refs s) = false -> ~ refers s x.
Proof. intros H (ps & Hr & Hx). apply bool_decide_eq_false in H. apply H. eapply reads_refs_extract; eassumption. Qed.
Theorem C93_twice_refuted : exists k tasks root h e line x,
  resolve_vars (k_getenv k) (Some {[lit "name" := lit "$${{ pw }}"]}) None [lit "name"] = Ok (k_vars k) /\
  keyed tasks /\ run_of k tasks root h (Ret (Some e)) /\ reports_at e line (EVarNotFound x) /\
  forall T t line' s, tasks !! T = Some t -> written k h t x line' s -> ~ refers s x.
Proof.
  assert (Hend : exists e, result quoting_run.2 = Some (Some e) /\ reports_at e 1 (EVarNotFound (lit "pw"))).
  { eexists. split; [vm_compute; reflexivity|]. vm_compute. auto. }
  destruct Hend as (e & He & Hat). exists quoting_conf, quoting, (lit "build"), quoting_run.1, e, 1, (lit "pw").
  split; [vm_compute; reflexivity|]. split; [apply keyed_by; vm_compute; reflexivity|]. split; [apply finished; exact He|]. split; [exact Hat|].
  intros T t line' s Ht Hw. unfold quoting, tm in Ht. cbn [map list_to_map foldr fst snd] in Ht. apply lookup_insert_Some in Ht as [[_ <-]|[_ Ht]]; [|rewrite lookup_empty in Ht; discriminate Ht].
  inversion Hw as [gl _ _ El Es|gl vs key v Hv _ _ _ _ El Es|vars key v Hv _ _ El Es|pa it s' vars Hit Hin _ _ El Es]; subst.
  - apply refers_not. vm_compute. reflexivity.
  - discriminate Hv.
  - destruct Hv as [Hv|[_ Hv]]; [|discriminate Hv]. cbn in Hv. apply lookup_singleton_Some in Hv as [_ <-]. apply refers_not. vm_compute. reflexivity.
  - destruct pa as [|i [|j [|]]]; try contradiction Hit; [|destruct Hit as (o & items & Hit & _)]; destruct i as [|i]; try discriminate Hit. cbn in Hit. injection Hit as <-.
    inversion Hin as [| |c key v Hv| | |]; subst; try (apply refers_not; vm_compute; reflexivity). discriminate Hv.
Qed.
Print Assumptions C93_twice_refuted.

(** The file named is always that of the whole project (runner.go 69), also for a task of an
    included file, of which the line is. Here the first has no such line. *)
Definition sub_tasks : list (node * node) := [kv 1 "tasks" (mp 2 [kv 2 "lib" (mp 3 [kv 3 "desc" (sc 3 "Builds"); kv 4 "run" (seq 5 [mp 5 [kv 5 "cmd" (sc 5 "make")]; mp 6 [kv 6 "cmd" (sc 6 "make ${{ nobody }}")]])])])].
Definition top_doc : list (node * node) := [kv 1 "includes" (mp 2 [kv 2 "s" (mp 3 [kv 3 "babfile" (sc 3 "s.yml")])])].
Definition sub_world : world := World (decoded (Y2 (mp 1 top_doc) (mp 1 sub_tasks)) {[lit "/r/Babfile" := lit "a"; lit "/r/s.yml" := lit "b"]}) (lit "/r") fwd go_grow vfwd key_order (fun _ => []) [] (lit "linux") false.
Theorem C93_included_refuted : exists w path name k tasks root h e line x T t cm l c,
  load w false path name = Ok (k, tasks, root) /\ run_of k tasks root h (Ret (Some e)) /\ reports_at e line (EVarNotFound x) /\
  tasks !! T = Some t /\ t_source t <> root_of (w_cwd w) path /\ item_at t [1] (RCmd cm) /\ c_line cm = line /\ refers (c_cmd cm) x /\
  w_fs w !! root_of (w_cwd w) path = decoded (Y2 (YMap l c) (mp 1 sub_tasks)) {[lit "/r/Babfile" := lit "a"; lit "/r/s.yml" := lit "b"]} !! lit "/r/Babfile" /\ ~ line_in line (YMap l c) /\
  forall is_print lower available, exists suffix,
    var_not_found_error is_print (Some (w_cwd w)) lower (root_of (w_cwd w) path) line x available = lit "Babfile:6: undefined variable: nobody" ++ suffix.
Proof.
  assert (Hl : exists k tasks root, load sub_world false (lit "Babfile") (lit "s:lib") = Ok (k, tasks, root) /\
    match result (ran k tasks root [Go [] 90 fine]).2 with Some (Some (RInterp 6 (EVarNotFound x))) => bool_decide (x = lit "nobody") | _ => false end = true /\
    match tasks !! lit "s:lib" with Some t => bool_decide (t_source t = lit "/r/s.yml") && match t_run t with [_; RCmd c] => (c_line c =? 6) && bool_decide (c_cmd c = lit "make ${{ nobody }}") | _ => false end | None => false end = true).
  { destruct (load sub_world false (lit "Babfile") (lit "s:lib")) as [[[k tasks] root]|] eqn:E.
    - assert (X : match load sub_world false (lit "Babfile") (lit "s:lib") with Ok (k, tasks, root) =>
        match result (ran k tasks root [Go [] 90 fine]).2 with Some (Some (RInterp 6 (EVarNotFound x))) => bool_decide (x = lit "nobody") | _ => false end &&
        match tasks !! lit "s:lib" with Some t => bool_decide (t_source t = lit "/r/s.yml") && match t_run t with [_; RCmd c] => (c_line c =? 6) && bool_decide (c_cmd c = lit "make ${{ nobody }}") | _ => false end | None => false end | Err _ => false end = true) by (vm_compute; reflexivity).
      rewrite E in X. apply andb_prop in X as [X1 X2]. exists k, tasks, root. split; [reflexivity|]. split; [exact X1|exact X2].
    - exfalso. assert (X : match load sub_world false (lit "Babfile") (lit "s:lib") with Ok _ => true | Err _ => false end = true) by (vm_compute; reflexivity). rewrite E in X. discriminate X. }
  destruct Hl as (k & tasks & root & Hl & Hend & Ht).
  destruct (result (ran k tasks root [Go [] 90 fine]).2) as [[e|]|] eqn:He; try discriminate Hend.
  destruct e as [| | | | | | |ln [x| |]| | | | | | | | | | | | |]; try discriminate Hend;
    (do 6 (destruct ln as [|ln]; [discriminate Hend|]); destruct ln; [|discriminate Hend]); try discriminate Hend.
  apply bool_decide_eq_true in Hend. subst x.
  destruct (tasks !! lit "s:lib") as [t|] eqn:Et; [|discriminate Ht]. apply andb_prop in Ht as [Hsrc Hrun]. apply bool_decide_eq_true in Hsrc.
  destruct (t_run t) as [|it0 [|[c| | | |] [|]]] eqn:Er; try discriminate Hrun. apply andb_prop in Hrun as [Hln Hc]. apply Nat.eqb_eq in Hln. apply bool_decide_eq_true in Hc.
  eexists sub_world, (lit "Babfile"), (lit "s:lib"), k, tasks, root, _, _, 6, (lit "nobody"), (lit "s:lib"), t, c, 1, top_doc.
  split; [exact Hl|]. split; [apply finished; exact He|]. split; [split; reflexivity|]. split; [exact Et|]. split; [rewrite Hsrc; vm_compute; discriminate|].
  split; [cbn; rewrite Er; reflexivity|]. split; [exact Hln|]. split; [|split; [reflexivity|split]].
  - destruct (undefined_refers (fun _ => []) ∅ (c_cmd c) (EVarNotFound (lit "nobody"))) as (x & Ex & Hx & _); [rewrite Hc; vm_compute; reflexivity|]. injection Ex as <-. exact Hx.
  - intros H. apply line_in_lines in H. vm_compute in H. repeat (destruct H as [H|H]; [discriminate H|]). exact H.
  - intros is_print lower available. exists (did_you_mean is_print lower (lit "nobody") available). unfold var_not_found_error.
    replace (var_location is_print (Some (w_cwd sub_world)) (root_of (w_cwd sub_world) (lit "Babfile")) 6) with (lit "Babfile:6") by (vm_compute; reflexivity).
    generalize (did_you_mean is_print lower (lit "nobody") available) as sfx. intros sfx. unfold fmt. cbn [lit list_ascii_of_string fmt_of sprintf app]. rewrite app_nil_r. reflexivity.
Qed.
Print Assumptions C93_included_refuted.
