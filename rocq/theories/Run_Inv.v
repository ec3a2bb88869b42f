(** The invariant of a run: what is true at every event, whatever the schedule, the
    outcomes and the moments of cancellation. Proved in Run_Proof. *)
From Verif Require Import Base Interp_Model Cond_Model Types_Model Path_Model Run_Model Run_Logic Run_Spec.

Section Inv.
  Context (k : config) (tasks : taskmap) (root : str).
  Notation g := (k_vars k).
  Notation dry := (k_dry k).
  Notation getenv := (k_getenv k).

  Section At.
    Context (h : hist).

    Definition deps_done (t : task) : Prop := forall d, d ∈ t_deps t -> ODone d ∈ h.
    Definition earlier (T : str) (t : task) (i : nat) : Prop :=
      forall i' it', i' < i -> t_run t !! i' = Some it' -> settled dry h T i' it'.
    Definition chosen (t : task) (i : nat) : Prop :=
      forall it, t_run t !! i = Some it ->
        matches_platform (item_platforms it) (k_os k) = true /\
        (item_when it = [] \/ exists vars, sees k h t [i] vars /\ evaluate getenv vars (item_when it) = Ok true).

    (** The task has no condition, or it held. *)
    Definition task_chosen (t : task) : Prop :=
      t_when t = [] \/ exists globals, globals_once k h globals /\ evaluate getenv globals (t_when t) = Ok true.

    (** Item [it] at [pa] of [T] is due. *)
    Definition runs (T : str) (pa : list nat) (it : run_item) : Prop :=
      exists t, tasks !! T = Some t /\ item_at t pa it /\ deps_done t /\ earlier T t (top pa) /\ chosen t (top pa) /\
                exists c, OCheck T (top pa) c false ∈ h.

    (** Why [n] is entered: the caller is being run, in the scope the claim names, and it
        has come to this dependency or this item. A dry run follows dependencies only. *)
    Definition called (sc : scope) (n : str) : Prop :=
      match sc with
      | [] => True
      | FDep T :: sc' => exists t pre post, tasks !! T = Some t /\ t_deps t = pre ++ n :: post /\ (forall d, d ∈ pre -> ODone d ∈ h) /\
                           task_chosen t /\ OClaim T sc' Fresh ∈ h
      | FRef T pa r :: sc' => dry = false /\ runs T pa (RTask r) /\ n = r_task r /\
                           exists t s, tasks !! T = Some t /\ OClaim T s Fresh ∈ h /\ item_scope T t pa s sc'
      | FPre T pa :: sc' => dry = false /\ exists o items r t', runs T pa (RPar o items) /\ RTask r ∈ items /\
                            tasks !! r_task r = Some t' /\ n ∈ t_deps t' /\
                            exists s, OClaim T s Fresh ∈ h /\ sc' = FBlock T pa o :: s
      | FBlock _ _ _ :: _ => False
      end.

    (** Nothing was done in the name of [pa] yet. *)
    Definition idle (T : str) (pa : list nat) : Prop :=
      forall ev, ev ∈ h -> tok ev = Some (T, pa, false) ->
        (exists i c b, ev = OCheck T i c b) \/ (exists cmd d, ev = OEcho T pa cmd d) \/ (exists m l, ev = OAlloc T pa m l) \/
        (exists d s, ev = OStat T pa d s).
    (** Item [j] of the block has a slot and is not over. *)
    Definition in_slot (T : str) (i j : nat) : Prop := OSlot T [i] j ∈ h /\ forall r, OReturn T [i] j r ∉ h.
    (** The result of a block: of its items, or none of them was started. *)
    Definition block_result (T : str) (i : nat) (r : outcome) : Prop :=
      (OJoin T [i] ∈ h /\ first_failure h T [i] r) \/
      ((forall j, OSlot T [i] j ∉ h) /\ OJoin T [i] ∉ h /\ (r = None -> dry = true)).
    Definition no_slot (T : str) (pa : list nat) (j : nat) : Prop :=
      forall ev, ev ∈ h -> tok ev <> Some (T, pa ++ [j], true).

    Definition interp_env (vars env out : gmap str str) : Prop :=
      (env = ∅ /\ out = ∅) \/
      (exists order, order ≡ₚ (map_to_list env).*1 /\ interpolate_env getenv vars env order = Ok out).
    Definition task_env (t : task) (tenv : gmap str str) : Prop :=
      exists vars0, sees k h t [] vars0 /\ interp_env vars0 (smap_get (merge_maps (k_env k) (t_env t))) tenv.

    Definition first_dir (a b c : str) : str := match a with [] => match b with [] => c | _ => b end | _ => a end.
    (** A directory is given, and it is [d]. *)
    Definition dir_given (t : task) (cmddir : str) (vars : gmap str str) (d : str) : Prop :=
      let d2 := first_dir cmddir (t_dir t) (k_dir k) in
      d2 <> [] /\ exists d3, interpolate getenv vars d2 = Ok d3 /\
        d = clean (if is_abs d3 then d3 else join2 (dir (t_source t)) d3).
    Definition dir_ok (t : task) (pa : list nat) (cmddir : str) (vars : gmap str str) (d : str) : Prop :=
      (first_dir cmddir (t_dir t) (k_dir k) = [] /\ d = dir (t_source t)) \/
      (dir_given t cmddir vars d /\ OStat (t_name t) pa d SDir ∈ h).

    (** Everything about a command that is started. *)
    Record started (x : proc_info) : Prop := {
      st_dry : dry = false;
      st_ctx : 0 ∈ x_ctx x;
      st_idle : idle (x_task x) (x_path x);
      st_slot : forall i j, x_path x = [i; j] -> in_slot (x_task x) i j;
      st_what : exists t c s vars tenv cenv order,
        tasks !! x_task x = Some t /\ runs (x_task x) (x_path x) (RCmd c) /\
        OClaim (x_task x) s Fresh ∈ h /\ item_scope (x_task x) t (x_path x) s (x_scope x) /\
        sees k h t (x_path x) vars /\
        trim_space (c_cmd c) <> [] /\ interpolate getenv vars (c_cmd c) = Ok (x_cmd x) /\
        task_env t tenv /\ interp_env vars (smap_get (merge_maps (Some tenv) (c_env c))) cenv /\
        order ≡ₚ (map_to_list cenv).*1 /\
        x_environ x = command_environ (k_environ k) (in_block (x_scope x) && x_show x) (no_color (x_scope x)) cenv order /\
        dir_ok t (x_path x) (c_dir c) vars (x_dir x) /\
        x_show x = is_output [c_output c; override_output (x_scope x); t_output t; k_output k] /\
        x_stdin x = negb (in_block (x_scope x)) && x_show x /\
        (is_silent [c_silent c; override_silent (x_scope x); t_silent t; k_silent k] = false ->
           OEcho (x_task x) (x_path x) (x_cmd x) (x_out x) ∈ h) }.

    (** What a dry run says about an item. *)
    Definition announced (t : task) (pa : list nat) (it : run_item) (w : would) : Prop :=
      match it, w with
      | RCmd c, WCmd cmd n d => exists vars tenv cenv, sees k h t pa vars /\ trim_space (c_cmd c) <> [] /\
          interpolate getenv vars (c_cmd c) = Ok cmd /\ task_env t tenv /\
          interp_env vars (smap_get (merge_maps (Some tenv) (c_env c))) cenv /\ n = size cenv /\ dir_ok t pa (c_dir c) vars d
      | RTask r, WTask n => n = r_task r
      | RLog lg, WLog msg level => exists vars, sees k h t pa vars /\ interpolate getenv vars (l_log lg) = Ok msg /\ level = l_level lg
      | RPrompt p, WPrompt var type msg => exists vars q, sees k h t pa vars /\ interpolate_prompt getenv vars p = Ok q /\
          var = p_prompt p /\ type = p_type p /\ msg = p_message q
      | RPar o items, WPar n mode => n = length items /\ mode = q_mode o
      | _, _ => False
      end.

    (** What of an item is interpolated directly. *)
    Definition item_strings (it : run_item) : list str :=
      match it with
      | RCmd c => [c_cmd c]
      | RLog lg => [l_log lg]
      | RPrompt p => [p_message p; p_default p; p_placeholder p] ++ p_options p ++ p_defaults p
      | _ => []
      end.

    (** The items of the task are due. *)
    Definition entered (T : str) (t : task) : Prop :=
      (exists s, OClaim T s Fresh ∈ h) /\ task_chosen t /\ deps_done t /\ t_run t <> [].

    (** The reason of an error is in the task map or in what happened. *)
    Definition err_ok (e : rerr) : Prop :=
      match reason e with
      | RFuel => False
      | RNotFound n => tasks !! n = None /\ exists s, reached tasks root n s /\ OClaim n s Fresh ∈ h
      | RUnknownRef n => tasks !! n = None /\
          exists T s i o items r, reached tasks root T s /\ runs T [i] (RPar o items) /\ RTask r ∈ items /\ r_task r = n
      | RCircular _ => exists n sc, OClaim n sc Active ∈ h
      | RCmdFailed T cmd => exists x, x_task x = T /\ x_cmd x = cmd /\
          (OStart x false ∈ h \/ (OStart x true ∈ h /\ OEnd T (x_path x) false ∈ h))
      | RPromptErr T v => exists pa q p, OPrompt T pa q None ∈ h /\ runs T pa (RPrompt p) /\ p_prompt p = v
      | RDirStat T d => exists pa s, s <> SDir /\ OStat T pa d s ∈ h
      | RTui => OTui false ∈ h
      | RCancelled => exists T i c, OCheck T i c true ∈ h
      | RTaskWhen T ln e => exists t globals, tasks !! T = Some t /\ ln = t_line t /\ (exists s, OClaim T s Fresh ∈ h) /\ globals_once k h globals /\
          evaluate getenv globals (t_when t) = Err e
      | RItemWhen T i ln e => exists t it vars, tasks !! T = Some t /\ t_run t !! i = Some it /\ ln = item_line it /\ (exists c, OCheck T i c false ∈ h) /\
          matches_platform (item_platforms it) (k_os k) = true /\ sees k h t [i] vars /\ evaluate getenv vars (item_when it) = Err e
      | RVars ln e => exists T t vs globals order, tasks !! T = Some t /\ ln = t_line t /\ entered T t /\ t_vars t = Some vs /\ globals_once k h globals /\
          order ≡ₚ (map_to_list vs).*1 /\ resolve_vars getenv (Some vs) (Some globals) order = Err e
      | REnv ln e => exists T t vars env key v, tasks !! T = Some t /\
          ((ln = t_line t /\ entered T t /\ sees k h t [] vars /\ env = smap_get (merge_maps (k_env k) (t_env t))) \/
           (exists pa c tenv, ln = c_line c /\ runs T pa (RCmd c) /\ sees k h t pa vars /\ task_env t tenv /\ env = smap_get (merge_maps (Some tenv) (c_env c)))) /\
          env !! key = Some v /\ interpolate getenv vars v = Err e
      | RInterp ln e => exists T t pa it s vars, tasks !! T = Some t /\ runs T pa it /\ ln = item_line it /\ s ∈ item_strings it /\ sees k h t pa vars /\
          interpolate getenv vars s = Err e
      | RDirInterp T ln e => exists t pa c vars, tasks !! T = Some t /\ runs T pa (RCmd c) /\ ln = c_line c /\ sees k h t pa vars /\
          interpolate getenv vars (first_dir (c_dir c) (t_dir t) (k_dir k)) = Err e
      | REmptyCmd T => exists pa c, runs T pa (RCmd c) /\ trim_space (c_cmd c) = []
      | RNoItems T => exists t, tasks !! T = Some t /\ entered T t /\ forall i it, t_run t !! i = Some it -> OSkip T [i] ByPlatform ∈ h
      | RUnsupported => exists T i j it, runs T [i; j] it /\
          match it with RPrompt _ | RPar _ _ => True | _ => False end
      | RDep _ _ | RPreDep _ _ | RItem _ _ => False
      end.
  End At.

  Definition owned_events (T : str) (h : hist) (P : event -> Prop) : Prop :=
    forall ev x, ev ∈ h -> tok ev = Some x -> x.1.1 = T -> P ev.

  (** The dependencies of the tasks that the items of a block name are done. *)
  Definition pre_done (h : hist) (items : list run_item) : Prop :=
    forall r t d, RTask r ∈ items -> tasks !! r_task r = Some t -> d ∈ t_deps t -> ODone d ∈ h.

  (** The invariant. *)
  Definition body_ok (h : hist) (ev : event) : Prop :=
    match ev with
    | OClaim n sc _ => called h sc n /\ reached tasks root n sc
    | ODone T => exists t, tasks !! T = Some t /\
        ((OSkipTask T ∈ h /\ owned_events T h (fun ev => ev = OSkipTask T)) \/
         (deps_done h t /\ (forall i it, t_run t !! i = Some it -> settled dry h T i it) /\ task_chosen h t /\
          (t_run t <> [] -> exists i it, t_run t !! i = Some it /\ matches_platform (item_platforms it) (k_os k) = true))) /\
        forall pa j, OSlot T pa j ∈ h -> OFree T pa j ∈ h
    | OSkipTask T => owned_events T h (fun _ => False) /\ exists t globals, tasks !! T = Some t /\ t_when t <> [] /\
        globals_once k h globals /\ evaluate getenv globals (t_when t) = Ok false
    | OHeader T _ _ => dry = false /\ owned_events T h (fun _ => False) /\ exists t s, tasks !! T = Some t /\ OClaim T s Fresh ∈ h /\
        is_silent [override_silent s; t_silent t; k_silent k] = false
    | OStat T pa d _ => idle h T pa /\ (forall i j, pa = [i; j] -> in_slot h T i j) /\ (forall d' s', OStat T pa d' s' ∉ h) /\ exists t c vars, tasks !! T = Some t /\ runs h T pa (RCmd c) /\
        sees k h t pa vars /\ dir_given t (c_dir c) vars d
    | OCheck T i c b => 0 ∈ c /\ exists t, tasks !! T = Some t /\ deps_done h t /\ earlier h T t i /\
        (forall c' b', OCheck T i c' b' ∉ h) /\ task_chosen h t /\ OSkipTask T ∉ h /\
        exists tenv, task_env h t tenv
    | OSkip T pa w => exists t i it, pa = [i] /\ tasks !! T = Some t /\ t_run t !! i = Some it /\ deps_done h t /\ earlier h T t i /\
        (exists c, OCheck T i c false ∈ h) /\
        owned_events T h (fun ev => forall x, tok ev = Some x -> head x.1.2 = Some i -> exists c b, ev = OCheck T i c b) /\
        match w with
        | ByPlatform => matches_platform (item_platforms it) (k_os k) = false
        | ByWhen => item_when it <> [] /\ exists vars, sees k h t [i] vars /\ evaluate getenv vars (item_when it) = Ok false
        end
    | OEcho T pa cmd _ => dry = false /\ idle h T pa /\ (forall i j, pa = [i; j] -> in_slot h T i j) /\ exists t c s sc vars, tasks !! T = Some t /\ runs h T pa (RCmd c) /\
        OClaim T s Fresh ∈ h /\ item_scope T t pa s sc /\ sees k h t pa vars /\ interpolate getenv vars (c_cmd c) = Ok cmd /\
        is_silent [c_silent c; override_silent sc; t_silent t; k_silent k] = false
    | OStart x _ => started h x
    | OEnd T pa _ => (exists x, x_task x = T /\ x_path x = pa /\ OStart x true ∈ h) /\ forall ok, OEnd T pa ok ∉ h
    | OPrompt T pa q _ => dry = false /\ idle h T pa /\ exists t i p vars, pa = [i] /\ tasks !! T = Some t /\ runs h T pa (RPrompt p) /\
        sees k h t pa vars /\ interpolate_prompt getenv vars p = Ok q
    | OLog T pa text level _ => dry = false /\ idle h T pa /\ (forall i j, pa = [i; j] -> in_slot h T i j) /\
        exists t lg vars, tasks !! T = Some t /\ runs h T pa (RLog lg) /\ sees k h t pa vars /\
        interpolate getenv vars (l_log lg) = Ok text /\ level = l_level lg
    | ORet T pa r => (forall r', ORet T pa r' ∉ h) /\ (forall w, OSkip T pa w ∉ h) /\ (forall j, OSlot T pa j ∈ h -> OFree T pa j ∈ h) /\ quiet h T pa /\ exists t i it, pa = [i] /\ tasks !! T = Some t /\ runs h T pa it /\
        match r with None => item_ok dry h T i it | Some e => err_ok h e end /\
        forall o items, it = RPar o items -> block_result h T i r
    | OWould T pa w => dry = true /\ idle h T pa /\ (forall i j, pa = [i; j] -> in_slot h T i j) /\
        exists t it, tasks !! T = Some t /\ runs h T pa it /\ announced h t pa it w
    | OAlloc T pa m l => (forall m' l', OAlloc T pa m' l' ∉ h) /\ (pa <> [] -> idle h T pa /\ exists i it, pa = [i] /\ runs h T pa it)
    | ORead T pa l m => exists t, tasks !! T = Some t /\ (pa <> [] -> sees k h t pa m) /\
        ((l = 0 /\ (pa = [] \/ t_vars t = None)) \/ exists pa' m', OAlloc T pa' m' l ∈ h)
    | OWrite T pa l key v => exists t i p q, pa = [i] /\ tasks !! T = Some t /\ runs h T pa (RPrompt p) /\ key = p_prompt p /\
        OPrompt T pa q (Some v) ∈ h /\ (forall r, ORet T pa r ∉ h) /\
        match t_vars t with None => l = 0 | Some _ => exists m, OAlloc T [] m l ∈ h end
    | OSlot T pa j => dry = false /\ idle h T pa /\ no_slot h T pa j /\
        exists i o items it, pa = [i] /\ runs h T pa (RPar o items) /\ items !! j = Some it /\
          ((0 < q_limit o)%Z -> slots T pa h < Z.to_nat (q_limit o) + frees T pa h) /\ pre_done h items
    | OGiveUp T pa j c => 0 ∈ c /\ idle h T pa /\ no_slot h T pa j /\
        exists i o items it, pa = [i] /\ runs h T pa (RPar o items) /\ items !! j = Some it /\ (0 < q_limit o)%Z
    | OReturn T pa j r => OSlot T pa j ∈ h /\ (forall r', OReturn T pa j r' ∉ h) /\ quiet h T (pa ++ [j]) /\
        exists i o items it, pa = [i] /\ runs h T pa (RPar o items) /\ items !! j = Some it /\
          match r with None => leaf_ok dry h T (pa ++ [j]) it | Some e => err_ok h e end
    | OFree T pa j => (exists r, OReturn T pa j r ∈ h) /\ OFree T pa j ∉ h
    | OJoin T pa => idle h T pa /\ exists i o items, pa = [i] /\ runs h T pa (RPar o items) /\
        forall j it, items !! j = Some it -> (exists r, OReturn T pa j r ∈ h) \/ (exists c, OGiveUp T pa j c ∈ h /\ cancelled h c)
    | _ => True
    end.

  Definition step_ok (h : hist) (ev : event) : Prop :=
    (forall x, tok ev = Some x -> status_of h x.1.1 = Active) /\ body_ok h ev.

  Notation good := (good g step_ok).

  (** ** What is stable *)
  Lemma globals_once_mono h h' m : h `suffix_of` h' -> globals_once k h m -> globals_once k h' m.
  Proof. intros Hs (h0 & H0 & ->). exists h0. split; [etransitivity; eassumption|reflexivity]. Qed.

  Lemma task_vars_mono h h' t i m : h `suffix_of` h' -> task_vars k h t i m -> task_vars k h' t i m.
  Proof.
    intros Hs. induction 1 as [vs globals order l m H1 H2 H3 H4 H5|i m p q v H1 IH H2 H3|i m it H1 IH H2 H3].
    - eapply tv_base; [exact H1|eapply globals_once_mono; eassumption|exact H3|exact H4|eapply suffix_elem; eassumption].
    - eapply tv_answer; [exact IH|exact H2|eapply suffix_elem; eassumption].
    - eapply tv_same; [exact IH|exact H2|]. destruct H3 as [H3|[(w & H3)|(w & H3)]]; [left; exact H3|right; left|right; right]; exists w; eapply suffix_elem; eassumption.
  Qed.

  Lemma sees_mono h h' t pa m : h `suffix_of` h' -> sees k h t pa m -> sees k h' t pa m.
  Proof. unfold sees. intros Hs. destruct (t_vars t); [apply task_vars_mono; exact Hs|apply globals_once_mono; exact Hs]. Qed.

  Lemma leaf_ok_mono h h' T pa it : h `suffix_of` h' -> leaf_ok dry h T pa it -> leaf_ok dry h' T pa it.
  Proof.
    intros Hs. destruct it; simpl; try (intros []; fail); destruct dry; try (intros (w & H); exists w; exact (suffix_elem _ _ _ Hs H)); try (apply suffix_elem; exact Hs).
    - intros [(x & H1 & H2 & H3) H4]. split; [exists x|]; eauto using suffix_elem.
    - intros (w & d & H). exists w, d. exact (suffix_elem _ _ _ Hs H).
  Qed.

  Lemma cancelled_mono h h' c : h `suffix_of` h' -> cancelled h c -> cancelled h' c.
  Proof. intros Hs (i & Hi & H). exists i. split; [exact Hi|eapply suffix_elem; eassumption]. Qed.

  Lemma item_ok_mono h h' T i it : h `suffix_of` h' -> item_ok dry h T i it -> item_ok dry h' T i it.
  Proof.
    intros Hs. destruct it; try exact (leaf_ok_mono h h' T [i] _ Hs); simpl; destruct dry eqn:Ed; try (intros (w & H); exists w; exact (suffix_elem _ _ _ Hs H)).
    - intros (q & v & H). exists q, v. eapply suffix_elem; eassumption.
    - intros [H0 H]. split; [eapply suffix_elem; eassumption|].
      intros j it' Hj. destruct (H j it' Hj) as [[H1 H2]|(c & H1 & H2 & H3)]; [left|right].
      + split; [eapply suffix_elem; eassumption|]. rewrite <- Ed. eapply leaf_ok_mono; [exact Hs|]. rewrite Ed. exact H2.
      + exists c. split; [eapply suffix_elem; eassumption|]. split; [exact H2|]. eapply cancelled_mono; eassumption.
  Qed.

  Lemma settled_mono h h' T i it : h `suffix_of` h' -> settled dry h T i it -> settled dry h' T i it.
  Proof. intros Hs [[H H']|(w & H)]; [left; split; [eapply item_ok_mono; eassumption|eapply suffix_elem; eassumption]|right; exists w; eapply suffix_elem; eassumption]. Qed.

  Lemma deps_done_mono h h' t : h `suffix_of` h' -> deps_done h t -> deps_done h' t.
  Proof. intros Hs H d Hd. eapply suffix_elem; [exact Hs|auto]. Qed.
  Lemma pre_done_mono h h' items : h `suffix_of` h' -> pre_done h items -> pre_done h' items.
  Proof. intros Hs H r t d H1 H2 H3. eapply suffix_elem; [exact Hs|eauto]. Qed.
  Lemma earlier_mono h h' T t i : h `suffix_of` h' -> earlier h T t i -> earlier h' T t i.
  Proof. intros Hs H i' it' Hi Hit. eapply settled_mono; [exact Hs|eauto]. Qed.
  Lemma chosen_mono h h' t i : h `suffix_of` h' -> chosen h t i -> chosen h' t i.
  Proof.
    intros Hs H it Hit. destruct (H it Hit) as [H1 [H2|(vars & H2 & H3)]]; (split; [exact H1|]); [left; exact H2|right].
    exists vars. split; [eapply sees_mono; eassumption|exact H3].
  Qed.
  Lemma runs_mono h h' T pa it : h `suffix_of` h' -> runs h T pa it -> runs h' T pa it.
  Proof.
    intros Hs (t & H1 & H2 & H3 & H4 & H5 & c & H6). exists t. split; [exact H1|]. split; [exact H2|].
    split; [eapply deps_done_mono; eassumption|]. split; [eapply earlier_mono; eassumption|].
    split; [eapply chosen_mono; eassumption|]. exists c. eapply suffix_elem; eassumption.
  Qed.
  Lemma task_chosen_mono h h' t : h `suffix_of` h' -> task_chosen h t -> task_chosen h' t.
  Proof. intros Hs [H|(gl & H1 & H2)]; [left; exact H|right]. exists gl. split; [eapply globals_once_mono; eassumption|exact H2]. Qed.
  Lemma called_mono h h' sc n : h `suffix_of` h' -> called h sc n -> called h' sc n.
  Proof.
    intros Hs. destruct sc as [|[T|T pa r|T pa o|T pa] sc]; simpl; auto.
    - intros (t & pre & post & H1 & H2 & H3 & H4 & H5). exists t, pre, post. split; [exact H1|]. split; [exact H2|].
      split; [intros d Hd; eapply suffix_elem; [exact Hs|auto]|]. split; [eapply task_chosen_mono; eassumption|eapply suffix_elem; eassumption].
    - intros (H0 & H & -> & t & s & H1 & H2 & H3). split; [exact H0|]. split; [eapply runs_mono; eassumption|]. split; [reflexivity|].
      exists t, s. split; [exact H1|]. split; [eapply suffix_elem; eassumption|exact H3].
    - intros (H0 & o & items & r & t' & H1 & H2 & H3 & H4 & s & H5 & H6). split; [exact H0|]. exists o, items, r, t'.
      split; [eapply runs_mono; eassumption|]. split; [exact H2|]. split; [exact H3|]. split; [exact H4|].
      exists s. split; [eapply suffix_elem; eassumption|exact H6].
  Qed.
  Lemma task_env_mono h h' t e : h `suffix_of` h' -> task_env h t e -> task_env h' t e.
  Proof. intros Hs (v & H1 & H2). exists v. split; [eapply sees_mono; eassumption|exact H2]. Qed.
  Lemma entered_mono h h' T t : h `suffix_of` h' -> entered h T t -> entered h' T t.
  Proof.
    intros Hs ((s & H1) & H2 & H3 & H4). split; [exists s; eapply suffix_elem; eassumption|]. split; [eapply task_chosen_mono; eassumption|].
    split; [eapply deps_done_mono; eassumption|exact H4].
  Qed.
  Lemma err_ok_mono h h' e : h `suffix_of` h' -> err_ok h e -> err_ok h' e.
  Proof.
    unfold err_ok. intros Hs. destruct (reason e); auto.
    - intros (H0 & s & H1 & H2). split; [exact H0|]. exists s. split; [exact H1|]. eapply suffix_elem; eassumption.
    - intros (m & sc & H). exists m, sc. eapply suffix_elem; eassumption.
    - intros (t & gl & H1 & HL & (s & H0) & H2 & H3). exists t, gl. split; [exact H1|]. split; [exact HL|]. split; [exists s; eapply suffix_elem; eassumption|]. split; [eapply globals_once_mono; eassumption|exact H3].
    - intros (t0 & it & vars & H1 & H2 & HL & (c & H0) & H3 & H4 & H5). exists t0, it, vars. split; [exact H1|]. split; [exact H2|]. split; [exact HL|]. split; [exists c; eapply suffix_elem; eassumption|].
      split; [exact H3|]. split; [eapply sees_mono; eassumption|exact H5].
    - intros (T & t & vs & gl & o & H1 & HL & H0 & H2 & H3 & H4). exists T, t, vs, gl, o. split; [exact H1|]. split; [exact HL|]. split; [eapply entered_mono; eassumption|]. split; [exact H2|].
      split; [eapply globals_once_mono; eassumption|exact H4].
    - intros (T & t & vars & env & key & v & H1 & H2 & H3). exists T, t, vars, env, key, v. split; [exact H1|]. split; [|exact H3].
      destruct H2 as [(HL & H0 & H2 & E)|(pa & c & te & HL & H2 & H4 & H5 & E)]; [left|right].
      + split; [exact HL|]. split; [eapply entered_mono; eassumption|]. split; [eapply sees_mono; eassumption|exact E].
      + exists pa, c, te. split; [exact HL|]. split; [eapply runs_mono; eassumption|]. split; [eapply sees_mono; eassumption|]. split; [eapply task_env_mono; eassumption|exact E].
    - intros (T & t & pa & it & s & vars & H1 & H2 & HL & H3 & H4 & H5). exists T, t, pa, it, s, vars. split; [exact H1|]. split; [eapply runs_mono; eassumption|]. split; [exact HL|]. split; [exact H3|].
      split; [eapply sees_mono; eassumption|exact H5].
    - intros (pa & c & H1 & H2). exists pa, c. split; [eapply runs_mono; eassumption|exact H2].
    - intros (t0 & pa & c & vars & H1 & H2 & HL & H3 & H4). exists t0, pa, c, vars. split; [exact H1|]. split; [eapply runs_mono; eassumption|]. split; [exact HL|]. split; [eapply sees_mono; eassumption|exact H4].
    - intros (pa & s & H1 & H2). exists pa, s. split; [exact H1|]. eapply suffix_elem; eassumption.
    - intros (x & H1 & H2 & H3). exists x. split; [exact H1|]. split; [exact H2|].
      destruct H3 as [H3|[H3 H4]]; [left|right; split]; eapply suffix_elem; eassumption.
    - intros (pa & q & p & H & H1 & H2). exists pa, q, p. split; [eapply suffix_elem; eassumption|]. split; [eapply runs_mono; eassumption|exact H2].
    - intros (T & i & c & H). exists T, i, c. eapply suffix_elem; eassumption.
    - intros (t0 & H1 & H0 & H2). exists t0. split; [exact H1|]. split; [eapply entered_mono; eassumption|]. intros i it Hi. eapply suffix_elem; [exact Hs|]. eapply H2. exact Hi.
    - intros (T & i & j & it & H1 & H2). exists T, i, j, it. split; [eapply runs_mono; eassumption|exact H2].
    - intros (H0 & T & s & i & o & items & r & H1 & H2 & H3). split; [exact H0|]. exists T, s, i, o, items, r. split; [exact H1|]. split; [eapply runs_mono; eassumption|exact H3].
    - apply suffix_elem. exact Hs.
  Qed.
  Lemma dir_ok_mono h h' t pa c v d : h `suffix_of` h' -> dir_ok h t pa c v d -> dir_ok h' t pa c v d.
  Proof. intros Hs [H|[H1 H2]]; [left; exact H|right]. split; [exact H1|eapply suffix_elem; eassumption]. Qed.
  Lemma announced_mono h h' t pa it w : h `suffix_of` h' -> announced h t pa it w -> announced h' t pa it w.
  Proof.
    intros Hs. destruct it, w; cbn; auto.
    - intros (vars & tenv & cenv & H1 & H2 & H3 & H4 & H5 & H6 & H7). exists vars, tenv, cenv. split; [eapply sees_mono; eassumption|]. split; [exact H2|]. split; [exact H3|].
      split; [eapply task_env_mono; eassumption|]. split; [exact H5|]. split; [exact H6|]. eapply dir_ok_mono; eassumption.
    - intros (vars & H1 & H2). exists vars. split; [eapply sees_mono; eassumption|exact H2].
    - intros (vars & q & H1 & H2). exists vars, q. split; [eapply sees_mono; eassumption|exact H2].
  Qed.

  (** ** Facts about good histories *)
  Lemma good_tail ev h : good (ev :: h) -> good h /\ allowed g h ev /\ step_ok h ev.
  Proof. inversion 1; auto. Qed.

  Lemma done_iff h T : good h -> status_of h T = Done <-> ODone T ∈ h.
  Proof.
    induction h as [|ev h IH]; intros Hg.
    - split; [discriminate|]. intros H. inversion H.
    - apply good_tail in Hg as (Hg & Ha & _). specialize (IH Hg).
      assert (Hskip : (forall m, ev <> ODone m) -> (forall m s, ev <> OClaim m s Fresh) ->
                status_of (ev :: h) T = Done <-> ODone T ∈ ev :: h).
      { intros H1 H2. rewrite elem_of_cons. assert (status_of (ev :: h) T = status_of h T) as ->.
        { destruct ev; try reflexivity; [destruct s; try reflexivity; exfalso; eapply H2; reflexivity|exfalso; eapply H1; reflexivity]. }
        rewrite IH. split; [auto|]. intros [H|H]; [exfalso; eapply H1; symmetry; exact H|exact H]. }
      destruct ev; try (apply Hskip; discriminate).
      + destruct s; try (apply Hskip; discriminate). simpl in *. destruct (decide (n = T)) as [->|Hne].
        * split; [discriminate|]. intros H. apply elem_of_cons in H as [H|H]; [discriminate|]. apply IH in H. congruence.
        * rewrite elem_of_cons, IH. split; [auto|]. intros [H|H]; [discriminate|exact H].
      + simpl. rewrite elem_of_cons. destruct (decide (n = T)) as [->|Hne]; [split; auto|].
        rewrite IH. split; [auto|]. intros [H|H]; [congruence|exact H].
  Qed.

  Lemma active_of h T : good h -> status_of h T <> Fresh -> ODone T ∉ h -> status_of h T = Active.
  Proof. intros Hg Hc Hd. destruct (status_of h T) eqn:E; [congruence|reflexivity|]. exfalso. apply Hd. apply done_iff; assumption. Qed.

  Lemma claimed_of h ev x : good h -> ev ∈ h -> tok ev = Some x -> status_of h x.1.1 <> Fresh.
  Proof.
    intros Hg Hin Ht. destruct (good_in _ _ _ _ Hg Hin) as (h0 & Hs & _ & _ & [Hact _]).
    eapply status_claimed; [etransitivity; [apply suffix_cons_self|exact Hs]|]. rewrite (Hact x Ht). discriminate.
  Qed.

  Lemma fresh_owned h T : good h -> status_of h T = Fresh -> owned_events T h (fun _ => False).
  Proof. intros Hg Hf ev x Hin Ht <-. eapply claimed_of; eassumption. Qed.

  (** *** Variable maps *)
  Lemma allocs_suffix h h' : h `suffix_of` h' -> allocs h <= allocs h'.
  Proof. intros [q ->]. induction q as [|ev q IH]; [reflexivity|]. simpl. destruct ev; lia. Qed.

  Lemma alloc_range h T pa m l : good h -> OAlloc T pa m l ∈ h -> 0 < l <= allocs h.
  Proof.
    intros Hg Hin. destruct (good_in _ _ _ _ Hg Hin) as (h0 & Hs & _ & Ha & _). simpl in Ha. apply allocs_suffix in Hs. simpl in Hs. lia.
  Qed.

  Lemma alloc_unique h T pa m T' pa' m' l : good h -> OAlloc T pa m l ∈ h -> OAlloc T' pa' m' l ∈ h -> T = T' /\ pa = pa' /\ m = m'.
  Proof.
    induction h as [|ev h IH]; intros Hg H1 H2; [inversion H1|].
    apply good_tail in Hg as (Hg & Ha & _).
    apply elem_of_cons in H1 as [H1|H1]; apply elem_of_cons in H2 as [H2|H2].
    - rewrite <- H1 in H2. injection H2 as <- <- <-. auto.
    - subst ev. apply (alloc_range _ _ _ _ _ Hg) in H2. simpl in Ha. lia.
    - subst ev. apply (alloc_range _ _ _ _ _ Hg) in H1. simpl in Ha. lia.
    - apply (IH Hg H1 H2).
  Qed.

  (** A copy made for a block never changes. *)
  Lemma heap_clone h T pa m l : good h -> pa <> [] -> OAlloc T pa m l ∈ h -> heap_of g h l = m.
  Proof.
    induction h as [|ev h IH]; intros Hg Hpa Hin; [inversion Hin|].
    pose proof Hg as Hg0. apply good_tail in Hg as (Hg & Ha & [_ HG]).
    apply elem_of_cons in Hin as [<-|Hin]; [simpl; rewrite decide_True by reflexivity; reflexivity|].
    specialize (IH Hg Hpa Hin). pose proof (alloc_range _ _ _ _ _ Hg Hin) as Hr.
    destruct ev; try exact IH.
    - simpl in *. rewrite decide_False by lia. exact IH.
    - simpl in *. destruct (decide (l0 = l)) as [->|]; [|exact IH]. exfalso.
      destruct HG as (t' & i & p' & q & _ & _ & _ & _ & _ & _ & Hl). destruct (t_vars t').
      + destruct Hl as (m' & Hm'). destruct (alloc_unique _ _ _ _ _ _ _ _ Hg Hin Hm') as (_ & -> & _). congruence.
      + lia.
  Qed.

  (** The map of a task is changed by the task only. *)
  Lemma heap_base h h' T m l P : good h' -> since (owns_task T) P h h' -> OAlloc T [] m l ∈ h ->
    (forall pa key v, ~ P (OWrite T pa l key v)) -> heap_of g h' l = heap_of g h l.
  Proof.
    intros Hg (q & -> & Hq) Hin HP. induction q as [|ev q IH]; [reflexivity|]. simpl in Hg.
    apply Forall_cons in Hq as [Hev Hq]. apply good_tail in Hg as (Hg & Ha & [_ HG]). specialize (IH Hg Hq).
    assert (Hin' : OAlloc T [] m l ∈ q ++ h) by (apply elem_of_app; right; exact Hin).
    pose proof (alloc_range _ _ _ _ _ Hg Hin') as Hr.
    destruct ev; try exact IH.
    - simpl in *. rewrite decide_False by lia. exact IH.
    - simpl in *. destruct (decide (l0 = l)) as [->|]; [|exact IH]. exfalso.
      destruct HG as (t' & i & p' & q' & _ & _ & _ & _ & _ & _ & Hl). destruct (t_vars t').
      + destruct Hl as (m' & Hm'). destruct (alloc_unique _ _ _ _ _ _ _ _ Hg Hin' Hm') as (E & _ & _). rewrite <- E in Hev.
        eapply HP. apply Hev. reflexivity.
      + lia.
  Qed.

  (** Slots. *)
  Lemma slot_or_giveup h T pa j c : good h -> OSlot T pa j ∈ h -> OGiveUp T pa j c ∈ h -> False.
  Proof.
    induction h as [|ev h IH]; intros Hg H1 H2; [inversion H1|]. apply good_tail in Hg as (Hg & _ & [_ HG]).
    apply elem_of_cons in H1 as [<-|H1]; apply elem_of_cons in H2 as [E|H2]; try discriminate.
    - destruct HG as (_ & _ & Hn & _). apply (Hn _ H2). reflexivity.
    - subst ev. destruct HG as (_ & _ & Hn & _). apply (Hn _ H1). reflexivity.
    - apply (IH Hg H1 H2).
  Qed.

  Lemma slot_before_done h T pa j : good h -> OSlot T pa j ∈ h -> ODone T ∈ h -> OFree T pa j ∈ h.
  Proof.
    induction h as [|ev h IH]; intros Hg H1 H2; [inversion H1|]. pose proof Hg as Hg0. apply good_tail in Hg as (Hg & _ & [Hact HG]).
    apply elem_of_cons in H1 as [<-|H1]; apply elem_of_cons in H2 as [E|H2]; try discriminate.
    - specialize (Hact _ eq_refl). simpl in Hact. apply (done_iff _ _ Hg) in H2. congruence.
    - subst ev. destruct HG as (t & _ & _ & Hf). right. apply Hf. exact H1.
    - right. apply (IH Hg H1 H2).
  Qed.
End Inv.
