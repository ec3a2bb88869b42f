(** C81: what a dry run lists is what a run does. A dry run and a real run of the same
    task are compared, whatever each of them meets: the two are separate executions. *)
From Verif Require Import Base Interp_Model Interp_Spec Interp_Proof Interp_Escape Vars_Proof Cond_Model Types_Model Path_Model
  Run_Model Run_Logic Run_Spec Run_Inv Run_Proof Run_Facts Run_Own Run_Drive P_Run P_Run_Cmd.

(** ** Vocabulary of the statements *)

(** The same invocation with [--dry-run] or without. *)
Definition set_dry (k : config) (b : bool) : config :=
  Config b (k_vars k) (k_env k) (k_silent k) (k_output k) (k_dir k) (k_getenv k) (k_environ k) (k_os k) (k_terminal k).

(** Answers were only given to tasks that have variables of their own: the answers of
    other tasks change the global variables, for every task that comes after. *)
Definition globals_kept (tasks : taskmap) (h : hist) : Prop :=
  forall T pa q v t, OPrompt T pa q (Some v) ∈ h -> tasks !! T = Some t -> t_vars t <> None.
(** The task was not given an answer before its item [i]. *)
Definition unasked (h : hist) (T : str) (i : nat) : Prop :=
  forall i' q v, i' < i -> OPrompt T [i'] q (Some v) ∉ h.

(** What bab adds to the environment of a command whose output a block collects. *)
Inductive colour_hints : list str -> Prop :=
| hints_none : colour_hints []
| hints_off : colour_hints [lit "TERM=dumb"; lit "NO_COLOR=1"]
| hints_on : colour_hints [lit "FORCE_COLOR=1"].

(** Line [w], for item [i] of [T], was carried out in the run [h], successfully. *)
Definition carried_out (tasks : taskmap) (environ : list str) (h : hist) (T : str) (i : nat) (w : would) : Prop :=
  match w with
  | WCmd cmd n d => exists x hints added, OStart x true ∈ h /\ OEnd T [i] true ∈ h /\ x_task x = T /\ x_path x = [i] /\
      x_cmd x = cmd /\ x_dir x = d /\ x_environ x = environ ++ hints ++ added /\ colour_hints hints /\ length added = n
  | WTask n => ODone n ∈ h
  | WLog msg level => exists d, OLog T [i] msg level d ∈ h
  | WPrompt var type msg => exists q v, OPrompt T [i] q (Some v) ∈ h /\ p_prompt q = var /\ p_type q = type /\ p_message q = msg
  | WPar n mode => OJoin T [i] ∈ h /\ exists t o items, tasks !! T = Some t /\ t_run t !! i = Some (RPar o items) /\
      length items = n /\ q_mode o = mode /\
      forall j it, items !! j = Some it -> OReturn T [i] j None ∈ h /\ leaf_ok false h T [i; j] it
  end.

(** Line [w] says what the action [ev] does. *)
Definition tells (environ : list str) (w : would) (ev : event) : Prop :=
  match w, ev with
  | WCmd cmd n d, OStart x _ => x_cmd x = cmd /\ x_dir x = d /\ exists added, x_environ x = environ ++ added /\ length added = n
  | WLog msg level, OLog _ _ text l _ => text = msg /\ l = level
  | WPrompt var type msg, OPrompt _ _ q _ => p_prompt q = var /\ p_type q = type /\ p_message q = msg
  | _, _ => False
  end.

(** The outermost task reference or block around, if any: the one that is not itself
    inside another one. *)
Fixpoint outer_call (s : scope) : option frame :=
  match s with
  | [] => None
  | f :: s' =>
      match outer_call s' with
      | Some f' => Some f'
      | None => match f with FDep _ => None | _ => Some f end
      end
  end.
(** The line by which the action at [pa] of [T], that was entered by [s], is listed: a
    line of its own, or the line of the outermost reference or block around it. *)
Definition listed_under (s : scope) (T : str) (pa : list nat) : str * nat :=
  match outer_call s with
  | Some (FRef T0 pa0 _) | Some (FBlock T0 pa0 _) | Some (FPre T0 pa0) => (T0, top pa0)
  | Some (FDep _) | None => (T, top pa)
  end.
Definition line_for (environ : list str) (s : scope) (pa : list nat) (w : would) (ev : event) : Prop :=
  match outer_call s with
  | Some (FRef _ _ r) => w = WTask (r_task r)
  | Some (FBlock _ _ o) => exists n, w = WPar n (q_mode o)
  | Some _ => False
  | None => match pa with [_] => tells environ w ev | _ => exists n mode, w = WPar n mode end
  end.

(** ** Proofs *)
Definition is_dep (f : frame) : Prop := exists T, f = FDep T.

Section One.
  Context (k : config) (tasks : taskmap) (root : str) (Hkeyed : keyed tasks).
  Notation good := (good (k_vars k) (step_ok k tasks root)).

  Lemma kept_suffix h h' : h `suffix_of` h' -> globals_kept tasks h' -> globals_kept tasks h.
  Proof. intros Hs Hk T pa q v t Hin. apply (Hk T pa q v t). eapply suffix_elem; eassumption. Qed.
  Lemma globals_kept_const h : globals_kept tasks h -> good h -> heap_of (k_vars k) h 0 = k_vars k.
  Proof.
    induction h as [|ev h IH]; intros Hp Hg; [reflexivity|]. apply good_tail in Hg as (Hg & Ha & [_ HB]).
    assert (Hp' : globals_kept tasks h) by (eapply kept_suffix; [apply suffix_cons_self|exact Hp]).
    specialize (IH Hp' Hg). destruct ev; try exact IH.
    - simpl in *. rewrite decide_False by lia. exact IH.
    - simpl in *. destruct (decide (l = 0)) as [->|]; [|exact IH]. exfalso.
      destruct HB as (t' & i & pr & q & -> & Ht & _ & _ & Hq & _ & Hl). specialize (Hp' _ _ _ _ _ Hq Ht).
      destruct (t_vars t'); [|congruence]. destruct Hl as (m & Hm). apply (alloc_range _ _ _ _ _ _ _ _ Hg) in Hm. lia.
  Qed.
  Lemma kept_once h m : globals_kept tasks h -> good h -> globals_once k h m -> m = k_vars k.
  Proof.
    intros Hp Hg (h' & Hs & ->). apply globals_kept_const; [eapply kept_suffix; eassumption|eapply good_suffix; eassumption].
  Qed.
  Lemma task_vars_base h t i m : good h -> unasked h (t_name t) i -> task_vars k h t i m ->
    exists vs gl order, t_vars t = Some vs /\ globals_once k h gl /\ order ≡ₚ (map_to_list vs).*1 /\
      resolve_vars (k_getenv k) (Some vs) (Some gl) order = Ok m.
  Proof.
    intros Hg Hu Hv. induction Hv as [vs gl order l m A1 A2 A3 A4 A5|i m pr q v H1 IH Hit Hin|i m it H1 IH Hit Hwhy].
    - exists vs, gl, order. auto.
    - exfalso. eapply Hu; [|exact Hin]. lia.
    - apply IH. intros i' q v Hlt. apply Hu. lia.
  Qed.
  Lemma runs_chosen h T t pa it : good h -> tasks !! T = Some t -> runs k tasks h T pa it -> task_chosen k h t.
  Proof.
    intros Hg Ht (t' & Ht' & _ & _ & _ & _ & c & Hc). destruct (good_in _ _ _ _ Hg Hc) as (h0 & Hs & _ & _ & [_ (_ & t2 & H1 & _ & _ & _ & H2 & _)]).
    assert (t2 = t) as -> by congruence. eapply task_chosen_mono; [|exact H2]. etransitivity; [apply suffix_cons_self|exact Hs].
  Qed.
  Lemma claim_facts h T s st : good h -> OClaim T s st ∈ h -> called k tasks h s T /\ reached tasks root T s.
  Proof.
    intros Hg Hin. destruct (good_in _ _ _ _ Hg Hin) as (h0 & Hs & _ & _ & [_ (H1 & H2)]). split; [|exact H2].
    eapply called_mono; [|exact H1]. etransitivity; [apply suffix_cons_self|exact Hs].
  Qed.
  Lemma dry_scope s : forall h T st, k_dry k = true -> good h -> OClaim T s st ∈ h -> Forall is_dep s.
  Proof.
    induction s as [|f s IH]; intros h T st Hd Hg Hin; [constructor|]. destruct (claim_facts _ _ _ _ Hg Hin) as [Hc _].
    destruct f as [T'|T' pa r|T' pa o|T' pa]; simpl in Hc.
    - destruct Hc as (t & pre & post & _ & _ & _ & _ & Hc). constructor; [exists T'; reflexivity|eapply IH; eassumption].
    - destruct Hc as [Hc _]. congruence.
    - destruct Hc.
    - destruct Hc as [Hc _]. congruence.
  Qed.
  Lemma deps_no_call s : Forall is_dep s -> outer_call s = None.
  Proof. induction 1 as [|f s [T ->] _ IH]; simpl; [reflexivity|rewrite IH; reflexivity]. Qed.
  Lemma no_call_deps s : outer_call s = None -> Forall is_dep s.
  Proof.
    induction s as [|f s IH]; simpl; intros H; [constructor|]. destruct (outer_call s); [discriminate H|].
    destruct f; try discriminate H. constructor; [eexists; reflexivity|auto].
  Qed.
  Lemma deps_no_block s : Forall is_dep s -> in_block s = false.
  Proof. induction 1 as [|f s [T ->] _ IH]; simpl; auto. Qed.
  Lemma would_path h T pa w : k_dry k = true -> good h -> OWould T pa w ∈ h -> exists i, pa = [i].
  Proof.
    intros Hd Hg Hin. destruct (good_in _ _ _ _ Hg Hin) as (h0 & Hs & Hg0 & _ & [_ (_ & _ & Hsl & t & it & _ & Hr & _)]).
    destruct (runs_shape k tasks _ _ _ _ Hr) as [(i & ->)|(i & j & ->)]; [eauto|]. exfalso.
    destruct (Hsl i j eq_refl) as [Hsl1 _]. destruct (good_in _ _ _ _ Hg0 Hsl1) as (h1 & _ & _ & _ & [_ (Hd' & _)]). congruence.
  Qed.
  Lemma act_listed h ev T pa : good h -> ev ∈ h -> acts ev = Some (T, pa) -> exists s, OClaim T s Fresh ∈ h.
  Proof.
    intros Hg Hin Ha. destruct (good_in _ _ _ _ Hg Hin) as (h0 & Hs & Hg0 & Hal & HG).
    destruct (act_claim k tasks root ev h0 (T, pa, false)) as (s & Hc); [constructor; assumption|apply acts_tok; exact Ha|].
    exists s. eapply suffix_elem; [|exact Hc]. etransitivity; [apply suffix_cons_self|exact Hs].
  Qed.
End One.

Section Pair.
  Context (k : config) (tasks : taskmap) (root : str) (b1 b2 : bool).
  Notation k1 := (set_dry k b1).
  Notation k2 := (set_dry k b2).
  Notation good1 := (good (k_vars k1) (step_ok k1 tasks root)).
  Notation good2 := (good (k_vars k2) (step_ok k2 tasks root)).
  Context (Hkeyed : keyed tasks).
  Context (Hge : forall n, nul_free (k_getenv k n)) (Hv : all_nul_free (k_vars k))
    (Htv : forall T t vs, tasks !! T = Some t -> t_vars t = Some vs -> all_nul_free vs).
  Context (h1 h2 : hist) (Hg1 : good1 h1) (Hg2 : good2 h2) (Hk1 : globals_kept tasks h1) (Hk2 : globals_kept tasks h2).

  Lemma once_agree m1 m2 : globals_once k1 h1 m1 -> globals_once k2 h2 m2 -> m1 = m2.
  Proof. intros H1 H2. apply (kept_once k1 tasks root h1 m1 Hk1 Hg1) in H1. apply (kept_once k2 tasks root h2 m2 Hk2 Hg2) in H2. simpl in *. congruence. Qed.
  Lemma sees_agree T t pa m1 m2 : tasks !! T = Some t -> sees k1 h1 t pa m1 -> sees k2 h2 t pa m2 ->
    unasked h1 T (top pa) -> unasked h2 T (top pa) -> m1 = m2.
  Proof.
    intros Ht. rewrite <- (Hkeyed _ _ Ht) in *. unfold sees. destruct (t_vars t) as [vs|] eqn:E.
    - intros H1 H2 U1 U2. apply (task_vars_base k1 tasks root) in H1; [|exact Hg1|exact U1]. apply (task_vars_base k2 tasks root) in H2; [|exact Hg2|exact U2].
      destruct H1 as (vs1 & gl1 & o1 & A1 & A2 & A3 & A4). destruct H2 as (vs2 & gl2 & o2 & B1 & B2 & B3 & B4).
      rewrite E in A1, B1. injection A1 as <-. injection B1 as <-.
      apply (kept_once k1 tasks root h1 gl1 Hk1 Hg1) in A2. apply (kept_once k2 tasks root h2 gl2 Hk2 Hg2) in B2. subst gl1 gl2.
      assert (B5 : resolve_vars (k_getenv k) (Some vs) (Some (k_vars k)) o2 = Ok m2) by exact B4.
      pose proof (resolve_vars_order (k_getenv k) vs (Some (k_vars k)) o1 o2 Hge (Htv _ _ _ Ht E) Hv A3 B3 m1 A4). congruence.
    - intros H1 H2 _ _. eapply once_agree; eassumption.
  Qed.
  Lemma task_not_skipped T t : tasks !! T = Some t -> task_chosen k1 h1 t -> OSkipTask T ∉ h2.
  Proof.
    intros Ht Hc Hin. destruct (good_in _ _ _ _ Hg2 Hin) as (h0 & Hs & _ & _ & [_ (_ & t' & gl & H1 & H2 & H3 & H4)]).
    assert (t' = t) as -> by congruence. destruct Hc as [Hc|(gl1 & H5 & H6)]; [congruence|].
    rewrite (once_agree gl1 gl H5) in H6; [simpl in *; congruence|]. eapply globals_once_mono; [|exact H3]. etransitivity; [apply suffix_cons_self|exact Hs].
  Qed.
  Lemma item_not_skipped T t i w : tasks !! T = Some t -> is_Some (t_run t !! i) -> chosen k1 h1 t i -> unasked h1 T i -> unasked h2 T i -> OSkip T [i] w ∉ h2.
  Proof.
    intros Ht [it Hit] Hc U1 U2 Hin. destruct (good_in _ _ _ _ Hg2 Hin) as (h0 & Hs & _ & _ & [_ (t' & i' & it' & E & H1 & H2 & _ & _ & _ & _ & H3)]).
    injection E as <-. assert (t' = t) as -> by congruence. assert (it' = it) as -> by congruence. destruct (Hc it Hit) as [Hp Hw]. destruct w.
    - simpl in *. congruence.
    - destruct H3 as (Hn & vars & H4 & H5). destruct Hw as [Hw|(vars1 & H6 & H7)]; [contradiction|].
      rewrite (sees_agree T t [i] vars1 vars Ht H6) in H7; [simpl in *; congruence| |exact U1|exact U2].
      eapply sees_mono; [|exact H4]. etransitivity; [apply suffix_cons_self|exact Hs].
  Qed.
  (** A task that the first run needs, through dependencies alone, is complete in the second. *)
  Lemma deps_done_there s : forall T st, Forall is_dep s -> OClaim T s st ∈ h1 -> ODone root ∈ h2 -> ODone T ∈ h2.
  Proof.
    induction s as [|f s IH]; intros T st Hs Hin Hr; destruct (claim_facts k1 tasks root _ _ _ _ Hg1 Hin) as [Hc Hre].
    - inversion Hre; subst. exact Hr.
    - inversion Hs as [|f' s' [T' ->] Hs']; subst. simpl in Hc. destruct Hc as (t & pre & post & Ht & Hd & _ & Hch & Hcl).
      specialize (IH T' Fresh Hs' Hcl Hr). destruct (done_settled k2 tasks root _ _ Hg2 IH) as (t' & Ht' & [[Hsk _]|[Hdeps _]]).
      + destruct (task_not_skipped T' t Ht Hch Hsk).
      + assert (t' = t) as -> by congruence. apply Hdeps. rewrite Hd. apply elem_of_app. right. left.
  Qed.
  (** ... and so are its items. *)
  Lemma item_settled_there s T t pa it i : Forall is_dep s -> OClaim T s Fresh ∈ h1 -> ODone root ∈ h2 -> tasks !! T = Some t ->
    runs k1 tasks h1 T pa it -> top pa = i -> unasked h1 T i -> unasked h2 T i ->
    exists it', t_run t !! i = Some it' /\ item_ok b2 h2 T i it'.
  Proof.
    intros Hs Hcl Hr Ht Hru <- U1 U2. pose proof (deps_done_there _ _ _ Hs Hcl Hr) as Hd.
    assert (exists it', t_run t !! top pa = Some it') as (it' & Hit).
    { destruct Hru as (t' & Ht' & Hat & _). assert (t' = t) as -> by congruence.
      destruct pa as [|i [|j [|? ?]]]; simpl in *; try contradiction; [eauto|]. destruct Hat as (o & its & H & _). eauto. }
    exists it'. split; [exact Hit|]. destruct (done_settled k2 tasks root _ _ Hg2 Hd) as (t' & Ht' & [[Hsk _]|[_ Hall]]).
    - destruct (task_not_skipped T t Ht); [|exact Hsk]. eapply (runs_chosen k1 tasks root); eassumption.
    - assert (t' = t) as -> by congruence. destruct (Hall _ _ Hit) as [[Hok _]|(w & Hw)]; [exact Hok|].
      exfalso. destruct Hru as (t' & Ht'' & _ & _ & _ & Hch & _). assert (t' = t) as -> by congruence.
      eapply (item_not_skipped T t); [exact Ht|eauto|exact Hch|exact U1|exact U2|exact Hw].
  Qed.
  Lemma interp_env_agree vars env out1 out2 : interp_env k1 vars env out1 -> interp_env k2 vars env out2 -> out1 = out2.
  Proof.
    intros H1 H2. apply map_eq. intros n. apply (interp_env_get _ _ _ _ n) in H1, H2. destruct (env !! n); [|congruence].
    destruct H1 as (v1 & A1 & A2). destruct H2 as (v2 & B1 & B2). simpl in *. congruence.
  Qed.
  Lemma task_env_agree T t e1 e2 : tasks !! T = Some t -> task_env k1 h1 t e1 -> task_env k2 h2 t e2 -> e1 = e2.
  Proof.
    intros Ht (v1 & A1 & A2) (v2 & B1 & B2). rewrite (sees_agree T t [] v1 v2 Ht A1 B1) in A2; [|intros i q v H; exfalso; unfold top in H; simpl in H; lia..].
    eapply interp_env_agree; eassumption.
  Qed.
  Lemma dir_agree t pa cd vars d1 d2 : dir_ok k1 h1 t pa cd vars d1 -> dir_ok k2 h2 t pa cd vars d2 -> d1 = d2.
  Proof.
    intros [[A1 A2]|[(A1 & d & A2 & A3) _]] [[B1 B2]|[(B1 & d' & B2 & B3) _]]; [congruence|contradiction|contradiction|].
    assert (E : interpolate (k_getenv k) vars (first_dir cd (t_dir t) (k_dir k)) = Ok d') by exact B2.
    assert (E' : interpolate (k_getenv k) vars (first_dir cd (t_dir t) (k_dir k)) = Ok d) by exact A2.
    rewrite E in E'. injection E' as ->. congruence.
  Qed.
End Pair.

Section Theorems.
  Context (k : config) (tasks : taskmap) (root : str) (Hkeyed : keyed tasks).
  Context (Hge : forall n, nul_free (k_getenv k n)) (Hv : all_nul_free (k_vars k))
    (Htv : forall T t vs, tasks !! T = Some t -> t_vars t = Some vs -> all_nul_free vs).
  Notation dry_run := (run_of (set_dry k true) tasks root).
  Notation real_run := (run_of (set_dry k false) tasks root).

  Lemma dry_unasked h p T pa q a : dry_run h p -> OPrompt T pa q a ∉ h.
  Proof.
    intros Hr Hin. pose proof (C28_dry_run (set_dry k true) tasks root Hkeyed h p _ eq_refl Hr Hin). discriminate.
  Qed.
  Lemma prompt_same vars p q : interpolate_prompt (k_getenv k) vars p = Ok q -> p_prompt q = p_prompt p /\ p_type q = p_type p.
  Proof.
    unfold interpolate_prompt. repeat (match goal with |- context [match ?x with _ => _ end] => destruct x; try discriminate end).
    all: intros H; injection H as <-; auto.
  Qed.

  (** Every line of a dry run, however far it got, is carried out by a run that
      succeeds: the command with this text, in this directory, with so many variables
      added to its environment; the message; the question. *)
  Theorem C81_listed_is_run hd pd hr T pa w : dry_run hd pd -> real_run hr (Ret None) -> (forall m, OCancel m ∉ hr) ->
    globals_kept tasks hr -> OWould T pa w ∈ hd -> unasked hr T (top pa) ->
    exists i, pa = [i] /\ carried_out tasks (k_environ k) hr T i w.
  Proof.
    intros Rd Rr Hnc Hk Hin Hu. pose proof (run_good (set_dry k true) tasks root Hkeyed _ _ Rd) as Gd. pose proof (run_good (set_dry k false) tasks root Hkeyed _ _ Rr) as Gr.
    destruct (would_path (set_dry k true) tasks root _ _ _ _ eq_refl Gd Hin) as (i & ->). exists i. split; [reflexivity|].
    assert (Hkd : globals_kept tasks hd) by (intros T' pa' q v t H; destruct (dry_unasked _ _ _ _ _ _ Rd H)).
    assert (Hud : unasked hd T i) by (intros i' q v _ H; exact (dry_unasked _ _ _ _ _ _ Rd H)).
    destruct (act_listed (set_dry k true) tasks root _ _ _ _ Gd Hin eq_refl) as (s & Hcl).
    pose proof (dry_scope (set_dry k true) tasks root _ _ _ _ eq_refl Gd Hcl) as Hs.
    destruct (C22_success_ran_everything_partial (set_dry k false) tasks root Hkeyed hr Rr Hnc) as (Hroot & _ & _).
    destruct (good_in _ _ _ _ Gd Hin) as (h0 & Hsu & _ & _ & [_ (_ & _ & _ & t & it & Ht & Hru & Han)]).
    assert (Hsu' : h0 `suffix_of` hd) by (etransitivity; [apply suffix_cons_self|exact Hsu]).
    destruct (item_settled_there k tasks root true false Hkeyed Hge Hv Htv hd hr Gd Gr Hkd Hk s T t [i] it i Hs Hcl Hroot Ht (runs_mono _ _ _ _ _ _ _ Hsu' Hru) eq_refl Hud Hu)
      as (it' & Hit & Hok).
    apply (runs_item (set_dry k true) tasks _ _ _ _ _ Ht) in Hru. simpl in Hru. rewrite Hit in Hru. injection Hru as ->.
    assert (Hsee : forall v1 v2 h', sees (set_dry k true) h0 t [i] v1 -> h' `suffix_of` hr -> sees (set_dry k false) h' t [i] v2 -> v1 = v2).
    { intros v1 v2 h' H1 Hs' H2. eapply (sees_agree k tasks root true false Hkeyed Hge Hv Htv hd hr Gd Gr Hkd Hk T t [i]); [exact Ht| | |exact Hud|exact Hu];
        (eapply sees_mono; [|eassumption]; assumption). }
    destruct it as [c|r|lg|pr|o items]; destruct w as [cmd n d|n|msg lv|var ty msg|n mode]; simpl in Han; try contradiction.
    - destruct Hok as [(x & E1 & E2 & Hst) He]. destruct Han as (vars & te & ce & S1 & _ & I1 & V1 & C1 & -> & D1).
      destruct (start_facts (set_dry k false) tasks root Hkeyed _ _ _ _ Rr Hst) as (past & _ & Hsp & _ & HB).
      destruct (st_what _ _ _ _ HB) as (t2 & c2 & s2 & vars2 & te2 & ce2 & o2 & T2 & Q2 & CL2 & SC2 & S2 & _ & I2 & V2 & C2 & O2 & X2 & D2 & _).
      rewrite E1 in *. rewrite E2 in *. assert (t2 = t) as -> by congruence.
      apply (runs_item (set_dry k false) tasks _ _ _ _ _ Ht) in Q2. simpl in Q2. rewrite Hit in Q2. injection Q2 as <-.
      pose proof (Hsee vars vars2 past S1 Hsp S2) as <-.
      rewrite (task_env_agree k tasks root true false Hkeyed Hge Hv Htv hd hr Gd Gr Hkd Hk T t te te2 Ht) in C1;
        [|eapply task_env_mono; eassumption|eapply task_env_mono; eassumption].
      assert (ce = ce2) as -> by (eapply (interp_env_agree k true false); [exact C1|exact C2]).
      eexists x, _, (map (fun key => key ++ "="%char :: default [] (ce2 !! key)) o2).
      split; [exact Hst|]. split; [exact He|]. split; [exact E1|]. split; [exact E2|].
      split; [simpl in I1, I2; congruence|].
      split; [symmetry; exact (dir_agree k true false h0 past _ _ _ _ _ _ D1 D2)|].
      split; [rewrite X2; unfold command_environ; reflexivity|].
      split; [destruct (in_block (x_scope x) && x_show x); [destruct (no_color (x_scope x))|]; constructor|].
      rewrite map_length, O2, fmap_length. reflexivity.
    - subst n. exact Hok.
    - destruct Hok as (text & d & Hlog). destruct Han as (vars & S1 & I1 & ->).
      destruct (good_in _ _ _ _ Gr Hlog) as (h4 & Hs4 & _ & _ & [_ (_ & _ & _ & t2 & lg2 & vars2 & T2 & Q2 & S2 & I2 & E2)]).
      assert (t2 = t) as -> by congruence. apply (runs_item (set_dry k false) tasks _ _ _ _ _ Ht) in Q2. simpl in Q2. rewrite Hit in Q2. injection Q2 as <-.
      assert (vars = vars2) as <- by (eapply (Hsee vars vars2 h4 S1); [etransitivity; [apply suffix_cons_self|exact Hs4]|exact S2]). simpl in *. exists d. assert (text = msg) as <- by congruence. exact Hlog.
    - destruct Hok as (q & v & Hq). destruct Han as (vars & q1 & S1 & I1 & -> & -> & ->).
      destruct (good_in _ _ _ _ Gr Hq) as (h4 & Hs4 & _ & _ & [_ (_ & _ & t2 & i2 & p2 & vars2 & E2 & T2 & Q2 & S2 & I2)]).
      assert (t2 = t) as -> by congruence. apply (runs_item (set_dry k false) tasks _ _ _ _ _ Ht) in Q2. simpl in Q2. rewrite Hit in Q2. injection Q2 as <-.
      assert (vars = vars2) as <- by (eapply (Hsee vars vars2 h4 S1); [etransitivity; [apply suffix_cons_self|exact Hs4]|exact S2]).
      assert (q1 = q) as -> by (simpl in *; congruence). exists q, v. split; [exact Hq|]. destruct (prompt_same _ _ _ I2) as [-> ->]. auto.
    - destruct Han as [-> ->]. destruct Hok as [Hj Hall]. split; [exact Hj|]. exists t, o, items.
      split; [exact Ht|]. split; [exact Hit|]. split; [reflexivity|]. split; [reflexivity|]. intros j it' Hj'.
      destruct (Hall j it' Hj') as [H|(c & _ & _ & (m & _ & Hm))]; [exact H|]. destruct (Hnc m Hm).
  Qed.

  (** The reference or block that is outermost is due in the run. *)
  Lemma outer_due h : good (k_vars k) (step_ok (set_dry k false) tasks root) h -> forall n s T st f, length s < n -> OClaim T s st ∈ h -> outer_call s = Some f ->
    exists T0 i0 s0, OClaim T0 s0 Fresh ∈ h /\ outer_call s0 = None /\
      ((exists r, f = FRef T0 [i0] r /\ runs (set_dry k false) tasks h T0 [i0] (RTask r)) \/
       (exists o items, f = FBlock T0 [i0] o /\ runs (set_dry k false) tasks h T0 [i0] (RPar o items))).
  Proof.
    intros Hg. induction n as [|n IH]; intros s T st f Hlen Hin Ho; [lia|].
    destruct s as [|f' s']; [discriminate Ho|]. simpl in Hlen. destruct (claim_facts (set_dry k false) tasks root _ _ _ _ Hg Hin) as [Hc _].
    assert (Hblock : forall T' i o items s0, s' = FBlock T' [i] o :: s0 -> OClaim T' s0 Fresh ∈ h -> runs (set_dry k false) tasks h T' [i] (RPar o items) ->
      exists T0 i0 s0, OClaim T0 s0 Fresh ∈ h /\ outer_call s0 = None /\
      ((exists r, f = FRef T0 [i0] r /\ runs (set_dry k false) tasks h T0 [i0] (RTask r)) \/
       (exists o items, f = FBlock T0 [i0] o /\ runs (set_dry k false) tasks h T0 [i0] (RPar o items)))).
    { intros T' i o items s0 -> Hcl Hru. simpl in Ho, Hlen. destruct (outer_call s0) as [f0|] eqn:E0.
      - injection Ho as <-. eapply IH; [|exact Hcl|exact E0]. lia.
      - injection Ho as <-. exists T', i, s0. split; [exact Hcl|]. split; [exact E0|]. right. eauto. }
    destruct f' as [T'|T' pa r|T' pa o|T' pa]; simpl in Hc.
    - destruct Hc as (t & pre & post & _ & _ & _ & _ & Hcl). simpl in Ho. destruct (outer_call s') as [f0|] eqn:E0; [|discriminate Ho].
      injection Ho as <-. eapply IH; [|exact Hcl|exact E0]. lia.
    - destruct Hc as (_ & Hru & _ & t & s0 & Ht & Hcl & Hsc). pose proof Hru as (t' & Ht' & Hat & Hrest). assert (t' = t) as -> by congruence.
      destruct pa as [|i [|j [|? ?]]]; simpl in Hsc; try contradiction.
      + subst s'. simpl in Ho. destruct (outer_call s0) as [f0|] eqn:E0; injection Ho as <-; [eapply IH; [|exact Hcl|exact E0]; lia|].
        exists T', i, s0. split; [exact Hcl|]. split; [exact E0|]. left. eauto.
      + destruct Hsc as (o & items & Hit & ->). eapply Hblock; [reflexivity|exact Hcl|]. exists t. split; [exact Ht|]. split; [exact Hit|exact Hrest].
    - destruct Hc.
    - destruct Hc as (_ & o & items & r & t' & Hru & _ & _ & _ & s0 & Hcl & ->). destruct (runs_shape (set_dry k false) tasks _ _ _ _ Hru) as [(i & ->)|(i & j & ->)].
      + eapply Hblock; [reflexivity|exact Hcl|exact Hru].
      + exfalso. destruct Hru as (t & _ & (o' & its & _ & _) & _ & _ & _ & _).
        destruct (claim_facts (set_dry k false) tasks root _ _ _ _ Hg Hin) as [_ Hre]. inversion Hre.
  Qed.

  (** A line of a dry run is about the item it stands for. *)
  Lemma line_of h p T i w t it : dry_run h p -> OWould T [i] w ∈ h -> tasks !! T = Some t -> t_run t !! i = Some it ->
    exists h0, h0 `suffix_of` h /\ announced (set_dry k true) h0 t [i] it w.
  Proof.
    intros Rd Hin Ht Hit. pose proof (run_good (set_dry k true) tasks root Hkeyed _ _ Rd) as Gd.
    destruct (good_in _ _ _ _ Gd Hin) as (h0 & Hsu & _ & _ & [_ (_ & _ & _ & t' & it' & Ht' & Hru & Han)]). assert (t' = t) as -> by congruence.
    apply (runs_item (set_dry k true) tasks _ _ _ _ _ Ht) in Hru. simpl in Hru. rewrite Hit in Hru. injection Hru as <-.
    exists h0. split; [|exact Han]. etransitivity; [apply suffix_cons_self|exact Hsu].
  Qed.

  (** Everything a run does, however far it got, is listed by a dry run that succeeds:
      by a line of its own that says exactly this, or by the line of the task reference
      or parallel block as part of which it is done. *)
  Theorem C81_run_is_listed hd hr pr ev T pa s : dry_run hd (Ret None) -> real_run hr pr -> globals_kept tasks hr ->
    ev ∈ hr -> action ev = Some (T, pa) -> OClaim T s Fresh ∈ hr ->
    unasked hr (listed_under s T pa).1 (listed_under s T pa).2 ->
    exists w, OWould (listed_under s T pa).1 [(listed_under s T pa).2] w ∈ hd /\ line_for (k_environ k) s pa w ev.
  Proof.
    intros Rd Rr Hk Hin Ha Hcl Hu. pose proof (run_good (set_dry k true) tasks root Hkeyed _ _ Rd) as Gd. pose proof (run_good (set_dry k false) tasks root Hkeyed _ _ Rr) as Gr.
    assert (Hkd : globals_kept tasks hd) by (intros T' pa' q v t H; destruct (dry_unasked _ _ _ _ _ _ Rd H)).
    assert (Hud : forall T i, unasked hd T i) by (intros T' i i' q v _ H; exact (dry_unasked _ _ _ _ _ _ Rd H)).
    destruct (run_sound (set_dry k true) tasks root Hkeyed hd _ Rd) as [_ HQ]. pose proof (HQ None eq_refl : ODone root ∈ hd) as Hroot. clear HQ.
    assert (Hget : forall T0 pa0 it0 s0 i0, OClaim T0 s0 Fresh ∈ hr -> outer_call s0 = None -> runs (set_dry k false) tasks hr T0 pa0 it0 -> top pa0 = i0 -> unasked hr T0 i0 ->
      exists t it w h0, tasks !! T0 = Some t /\ t_run t !! i0 = Some it /\ OWould T0 [i0] w ∈ hd /\ h0 `suffix_of` hd /\ announced (set_dry k true) h0 t [i0] it w).
    { intros T0 pa0 it0 s0 i0 Hc0 Hn0 Hru0 Htop Hu0. pose proof Hru0 as (t & Ht & _).
      destruct (item_settled_there k tasks root false true Hkeyed Hge Hv Htv hr hd Gr Gd Hk Hkd s0 T0 t pa0 it0 i0 (no_call_deps _ Hn0) Hc0 Hroot Ht Hru0 Htop Hu0 (Hud T0 i0))
        as (it & Hit & Hok).
      assert (exists w, OWould T0 [i0] w ∈ hd) as (w & Hw) by (destruct it; exact Hok).
      destruct (line_of hd _ T0 i0 w t it Rd Hw Ht Hit) as (h0 & Hs0 & Han). exists t, it, w, h0. auto. }
    unfold listed_under, line_for in *. destruct (outer_call s) as [f|] eqn:Eo.
    - destruct (outer_due hr Gr (S (length s)) s T Fresh f (Nat.lt_succ_diag_r _) Hcl Eo) as (T0 & i0 & s0 & Hc0 & Hn0 & [(r & -> & Hru)|(o & items & -> & Hru)]); cbn [fst snd] in *.
      + destruct (Hget T0 [i0] _ s0 (top [i0]) Hc0 Hn0 Hru eq_refl Hu) as (t & it & w & h0 & Ht & Hit & Hw & Hs0 & Han).
        exists w. split; [exact Hw|]. apply (runs_item (set_dry k false) tasks _ _ _ _ _ Ht) in Hru. unfold top in Hit; simpl in Hru, Hit. rewrite Hit in Hru. injection Hru as ->.
        destruct w; simpl in Han; try contradiction. congruence.
      + destruct (Hget T0 [i0] _ s0 (top [i0]) Hc0 Hn0 Hru eq_refl Hu) as (t & it & w & h0 & Ht & Hit & Hw & Hs0 & Han).
        exists w. split; [exact Hw|]. apply (runs_item (set_dry k false) tasks _ _ _ _ _ Ht) in Hru. unfold top in Hit; simpl in Hru, Hit. rewrite Hit in Hru. injection Hru as ->.
        destruct w; simpl in Han; try contradiction. destruct Han as [_ ->]. eauto.
    - cbn [fst snd] in *. destruct (good_in _ _ _ _ Gr Hin) as (h4 & Hs4 & Hg4 & _ & HG).
      assert (Hs4' : h4 `suffix_of` hr) by (etransitivity; [apply suffix_cons_self|exact Hs4]).
      pose proof (action_acts _ _ _ Ha) as Ha'. destruct (acts_runs (set_dry k false) tasks root _ _ _ _ HG Ha') as (it0 & Hru).
      destruct (Hget T pa it0 s (top pa) Hcl Eo (runs_mono _ _ _ _ _ _ _ Hs4' Hru) eq_refl Hu) as (t & it & w & h0 & Ht & Hit & Hw & Hs0 & Han).
      exists w. split; [exact Hw|]. pose proof (runs_item (set_dry k false) tasks _ _ _ _ _ Ht Hru) as Hat.
      destruct (runs_shape (set_dry k false) tasks _ _ _ _ Hru) as [(i & ->)|(i & j & ->)].
      2:{ destruct Hat as (o & its & Hi & _). unfold top in Hit; simpl in Hit. rewrite Hit in Hi. injection Hi as ->. destruct w; simpl in Han; try contradiction. eauto. }
      unfold top in Hit; simpl in Hat, Hit. rewrite Hit in Hat. injection Hat as ->.
      assert (Hsee : forall v1 v2, sees (set_dry k true) h0 t [i] v1 -> sees (set_dry k false) h4 t [i] v2 -> v1 = v2).
      { intros v1 v2 H1 H2. eapply (sees_agree k tasks root true false Hkeyed Hge Hv Htv hd hr Gd Gr Hkd Hk T t [i]); [exact Ht| | |apply Hud|exact Hu];
          (eapply sees_mono; [|eassumption]; assumption). }
      destruct HG as [_ HB]. destruct ev; simpl in Ha; try discriminate Ha; injection Ha as E1 E2; simpl in HB.
      + destruct (st_what _ _ _ _ HB) as (t2 & c2 & s2 & vars2 & te2 & ce2 & o2 & T2 & Q2 & CL2 & SC2 & S2 & _ & I2 & V2 & C2 & O2 & X2 & D2 & _).
        rewrite E1 in *. rewrite E2 in *. assert (t2 = t) as -> by congruence.
        apply (runs_item (set_dry k false) tasks _ _ _ _ _ Ht) in Q2. simpl in Q2. rewrite Hit in Q2. injection Q2 as ->.
        destruct w as [cmd n d|n|msg lv|var ty msg|n mode]; simpl in Han; try contradiction.
        destruct Han as (vars & te & ce & S1 & _ & I1 & V1 & C1 & -> & D1).
        pose proof (Hsee vars vars2 S1 S2) as <-.
        rewrite (task_env_agree k tasks root true false Hkeyed Hge Hv Htv hd hr Gd Gr Hkd Hk T t te te2 Ht) in C1;
          [|eapply task_env_mono; eassumption|eapply task_env_mono; eassumption].
        assert (ce = ce2) as -> by (eapply (interp_env_agree k true false); [exact C1|exact C2]).
        split; [simpl in I1, I2; congruence|]. split; [symmetry; exact (dir_agree k true false h0 h4 _ _ _ _ _ _ D1 D2)|].
        exists (map (fun key => key ++ "="%char :: default [] (ce2 !! key)) o2). split.
        * simpl in SC2. assert (s2 = s) as ->.
          { eapply (claim_unique (set_dry k false) tasks root); [exact Gr|eapply suffix_elem; [exact Hs4'|exact CL2]|exact Hcl]. }
          rewrite X2, SC2, (deps_no_block s (no_call_deps _ Eo)). unfold command_environ. reflexivity.
        * rewrite map_length, O2, fmap_length. reflexivity.
      + destruct HB as (_ & _ & t2 & i2 & p2 & vars2 & _ & T2 & Q2 & S2 & I2). subst. assert (t2 = t) as -> by congruence.
        apply (runs_item (set_dry k false) tasks _ _ _ _ _ Ht) in Q2. simpl in Q2. rewrite Hit in Q2. injection Q2 as ->.
        destruct w as [cmd n d|n|msg lv|var ty msg|n mode]; simpl in Han; try contradiction. destruct Han as (vars & q1 & S1 & I1 & -> & -> & ->).
        pose proof (Hsee vars vars2 S1 S2) as <-. simpl. destruct (prompt_same _ _ _ I2) as [-> ->]. split; [reflexivity|]. split; [reflexivity|].
        simpl in *. congruence.
      + destruct HB as (_ & _ & _ & t2 & lg & vars2 & T2 & Q2 & S2 & I2 & ->). subst. assert (t2 = t) as -> by congruence.
        apply (runs_item (set_dry k false) tasks _ _ _ _ _ Ht) in Q2. simpl in Q2. rewrite Hit in Q2. injection Q2 as ->.
        destruct w as [cmd n d'|n|msg lv|var ty msg|n mode]; simpl in Han; try contradiction. destruct Han as (vars & S1 & I1 & ->).
        pose proof (Hsee vars vars2 S1 S2) as <-. simpl in *. split; [congruence|reflexivity].
  Qed.
End Theorems.
Print Assumptions C81_listed_is_run. Print Assumptions C81_run_is_listed.

(** ** The conditions are met *)
Definition shown_tasks : taskmap := tm
  [ Task (lit "all") 1 1 (lit "/w/Babfile.yml") [] [] [] (Some {[ lit "x" := lit "1" ]}) (Some {[ lit "A" := lit "a"; lit "B" := lit "${{ x }}" ]}) None None (lit "sub") [] [lit "prep"]
      [cmd "make ${{ x }}"; ref "lib"; RCmd (CmdRun 1 (lit "never") [] None None None [] (lit "false")); par 0 [cmd "left"; note "right"]];
    mk "prep" None [] [note "ready"];
    mk "lib" None ["prep"%string] [cmd "l"] ].
Definition dry_lines (h : hist) : list (str * list nat * would) :=
  rev (omap (fun ev => match ev with OWould T pa w => Some (T, pa, w) | _ => None end) h).
Definition shown_dry := ran (set_dry (conf false) true) shown_tasks (lit "all") [Go [] 100 fine].
Definition shown_real := ran (set_dry (conf false) false) shown_tasks (lit "all")
  [Go [] 100 fine; Do [] (MSlot 0); Go [0] 60 fine; Do [] (MReturn 0); Do [] (MFree 0); Do [] (MSlot 1); Go [1] 60 fine; Do [] (MReturn 1); Do [] (MFree 1); Do [] MJoin; Go [] 60 fine].
Definition performed (h : hist) : list (str * list nat) := rev (omap action h).
Example C81_met :
  result shown_dry.2 = Some None /\ result shown_real.2 = Some None /\
  dry_lines shown_dry.1 = [(lit "prep", [0], WLog (lit "ready") (lit "info")); (lit "all", [0], WCmd (lit "make 1") 2 (lit "/w/sub"));
    (lit "all", [1], WTask (lit "lib")); (lit "all", [3], WPar 2 [])] /\
  performed shown_real.1 = [(lit "prep", [0]); (lit "all", [0]); (lit "lib", [0]); (lit "all", [3; 0]); (lit "all", [3; 1])] /\
  has (fun ev => match ev with OPrompt _ _ _ _ | OCancel _ => true | _ => false end) shown_real.1 = false /\
  has (fun ev => match ev with OClaim T [FRef T' [1] r] Fresh => bool_decide (T = lit "lib" /\ T' = lit "all" /\ r_task r = lit "lib") | _ => false end) shown_real.1 = true.
Proof. vm_compute. auto 10. Qed.

(** ** What does not hold *)
Lemma finished k tasks root l r : result (ran k tasks root l).2 = Some r -> run_of k tasks root (ran k tasks root l).1 (Ret r).
Proof.
  intros H. pose proof (ran_run k tasks root l) as Hr. destruct (ran k tasks root l).2; try discriminate H. simpl in H. injection H as ->. exact Hr.
Qed.

(** A dry run does not ask, so that it has no value for what is asked: it fails where
    the run succeeds. *)
Definition greet_tasks : taskmap := tm [mk "all" (Some ∅) [] [ask "who"; cmd "greet ${{ who }}"]].
Definition greet_real := ran (set_dry (conf false) false) greet_tasks (lit "all") [Go [] 60 (says (lit "you"))].
Theorem C81_refuted : exists k tasks root hr, keyed tasks /\ run_of (set_dry k false) tasks root hr (Ret None) /\ (forall m, OCancel m ∉ hr) /\
  (exists x, OStart x true ∈ hr /\ x_cmd x = lit "greet you") /\
  forall hd, ~ run_of (set_dry k true) tasks root hd (Ret None).
Proof.
  exists (conf false), greet_tasks, (lit "all"), greet_real.1.
  assert (Hk : keyed greet_tasks) by (apply keyed_by; vm_compute; reflexivity). split; [exact Hk|].
  split; [apply finished; vm_compute; reflexivity|]. split.
  { intros m Hin. assert (H : has (fun ev => match ev with OCancel _ => true | _ => false end) greet_real.1 = false) by (vm_compute; reflexivity).
    pose proof (has_not _ _ H _ Hin). discriminate. }
  split.
  { assert (H : has (fun ev => match ev with OStart x true => bool_decide (x_cmd x = lit "greet you") | _ => false end) greet_real.1 = true) by (vm_compute; reflexivity).
    apply has_start in H as (x & H1 & H2). apply bool_decide_eq_true in H2. eauto. }
  intros hd Rd. pose proof (run_good (set_dry (conf false) true) greet_tasks _ Hk _ _ Rd) as Gd.
  destruct (run_sound (set_dry (conf false) true) greet_tasks (lit "all") Hk hd _ Rd) as [_ HQ]. pose proof (HQ None eq_refl : ODone (lit "all") ∈ hd) as Hroot.
  assert (Ht : greet_tasks !! lit "all" = Some (mk "all" (Some ∅) [] [ask "who"; cmd "greet ${{ who }}"])) by (vm_compute; reflexivity).
  destruct (done_settled (set_dry (conf false) true) greet_tasks (lit "all") _ _ Gd Hroot) as (t & Ht' & HH). rewrite Ht in Ht'. injection Ht' as <-.
  destruct HH as [[Hsk _]|[_ Hall]].
  - destruct (good_in _ _ _ _ Gd Hsk) as (h0 & _ & _ & _ & [_ (_ & t' & gl & H1 & H2 & _)]). rewrite Ht in H1. injection H1 as <-. apply H2. reflexivity.
  - destruct (Hall 1 _ eq_refl) as [[(w & Hw) _]|(w & Hw)].
    + destruct (line_of (conf false) greet_tasks (lit "all") Hk hd (Ret None) (lit "all") 1 w _ _ Rd Hw Ht eq_refl) as (h0 & Hs0 & Han).
      destruct w; try contradiction. destruct Han as (vars & te & ce & S1 & _ & I1 & _).
      assert (Hud : unasked hd (lit "all") 1).
      { intros i' q v _ Hin. exact (dry_unasked (conf false) greet_tasks (lit "all") Hk _ _ _ _ _ _ Rd Hin). }
      apply (sees_mono _ _ hd) in S1; [|exact Hs0]. unfold sees in S1. simpl in S1.
      destruct (task_vars_base (set_dry (conf false) true) greet_tasks (lit "all") hd (mk "all" (Some ∅) [] [ask "who"; Run_Drive.cmd "greet ${{ who }}"]) 1 vars Gd Hud S1) as (vs & gl & order & E1 & E2 & E3 & E4).
      injection E1 as <-.
      apply (kept_once (set_dry (conf false) true) greet_tasks (lit "all") hd gl) in E2;
        [|intros T' pa' q v t H; destruct (dry_unasked (conf false) greet_tasks (lit "all") Hk _ _ _ _ _ _ Rd H)|exact Gd]. subst gl.
      assert (order = []) as ->. { apply Permutation_nil. symmetry. exact E3. }
      vm_compute in E4. injection E4 as <-. vm_compute in I1. discriminate I1.
    + destruct (good_in _ _ _ _ Gd Hw) as (h0 & _ & _ & _ & [_ (t' & i & it & E & H1 & H2 & _ & _ & _ & _ & H3)]). injection E as <-.
      rewrite Ht in H1. injection H1 as <-. injection H2 as <-. destruct w; [vm_compute in H3; discriminate H3|destruct H3 as [H3 _]; apply H3; reflexivity].
Qed.
Print Assumptions C81_refuted.

(** The lines are not always in the order in which things are done: a dry run does not
    follow the reference to [b], and lists what [b] does where a later dependency names it. *)
Definition swap_tasks : taskmap := tm [mk "all" None ["a"; "b"]%string []; mk "a" None [] [ref "b"; cmd "two"]; mk "b" None [] [cmd "one"]].
Definition swap_dry := ran (set_dry (conf false) true) swap_tasks (lit "all") [Go [] 100 fine].
Definition swap_real := ran (set_dry (conf false) false) swap_tasks (lit "all") [Go [] 100 fine].
Fixpoint in_turn (f g : event -> bool) (h : hist) : bool :=
  match h with [] => false | ev :: h' => (g ev && has f h') || in_turn f g h' end.
Lemma in_turn_spec f g h : in_turn f g h = true -> exists e1 e2 past, happened h e2 past /\ e1 ∈ past /\ f e1 = true /\ g e2 = true.
Proof.
  induction h as [|ev h IH]; simpl; [discriminate|]. intros H. apply orb_prop in H as [H|H].
  - apply andb_prop in H as [H1 H2]. apply has_in in H2 as (e1 & H2 & H3). exists e1, ev, h. split; [unfold happened; reflexivity|auto].
  - destruct (IH H) as (e1 & e2 & past & H1 & H2). exists e1, e2, past. split; [|exact H2]. unfold happened in *. apply suffix_cons_r. exact H1.
Qed.
Definition lists (T : string) (i : nat) (ev : event) : bool := match ev with OWould T' pa _ => bool_decide (T' = lit T /\ pa = [i]) | _ => false end.
Theorem C81_order_refuted : exists k tasks root hd hr, keyed tasks /\ run_of (set_dry k true) tasks root hd (Ret None) /\
  run_of (set_dry k false) tasks root hr (Ret None) /\ exists T1 i1 T2 i2,
  (exists w1 w2 past, happened hd (OWould T2 [i2] w2) past /\ OWould T1 [i1] w1 ∈ past) /\
  (exists e1 e2 past, happened hr e1 past /\ e2 ∈ past /\ action e1 = Some (T1, [i1]) /\ action e2 = Some (T2, [i2])).
Proof.
  exists (conf false), swap_tasks, (lit "all"), swap_dry.1, swap_real.1. split; [apply keyed_by; vm_compute; reflexivity|].
  split; [apply finished; vm_compute; reflexivity|]. split; [apply finished; vm_compute; reflexivity|].
  exists (lit "a"), 1, (lit "b"), 0. split.
  - assert (H : in_turn (lists "a" 1) (lists "b" 0) swap_dry.1 = true) by (vm_compute; reflexivity).
    apply in_turn_spec in H as (e1 & e2 & past & H1 & H2 & H3 & H4). destruct e1; try discriminate H3. destruct e2; try discriminate H4.
    apply bool_decide_eq_true in H3 as [-> ->]. apply bool_decide_eq_true in H4 as [-> ->]. eauto 6.
  - assert (H : in_turn (does "b" [0]) (does "a" [1]) swap_real.1 = true) by (vm_compute; reflexivity).
    apply in_turn_spec in H as (e1 & e2 & past & H1 & H2 & H3 & H4). exists e2, e1, past. apply bool_decide_eq_true in H3, H4. auto.
Qed.
Print Assumptions C81_order_refuted.
