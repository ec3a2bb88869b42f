(** Runs of Babfiles that differ in display only simulate each other. *)
From Verif Require Import Base Types_Model Path_Model Interp_Model Cond_Model Run_Model Sim_Proof Look_Spec.

Definition LM (e1 e2 : event) : Prop := shown e1 = false /\ shown e2 = false /\ core e1 = core e2.
Definition LQ (e : event) : Prop := shown e = true.
Definition LC (c1 c2 : ctx) : Prop := 0 ∈ c1 <-> 0 ∈ c2.

Definition LO (r1 r2 : outcome) : Prop := placeless <$> r1 = placeless <$> r2.

Notation lmatched := (matched LM LQ watched).

Lemma matched_happenings h1 h2 : lmatched h1 h2 -> happenings h1 = happenings h2.
Proof.
  unfold happenings. induction 1 as [|e1 e2 h1 h2 (H1 & H2 & H3) Hf Hm IH|e1 h1 h2 Hq Hf Hm IH|e2 h1 h2 Hq Hm IH]; cbn.
  - reflexivity.
  - rewrite H1, H2. cbn. rewrite H3, IH. reflexivity.
  - unfold LQ in Hq. rewrite Hq. exact IH.
  - unfold LQ in Hq. rewrite Hq. exact IH.
Qed.
Lemma matched_watched h1 h2 : lmatched h1 h2 -> Forall watched h1.
Proof. induction 1; [constructor|constructor; assumption..|assumption]. Qed.

(** The shared state depends on what happens only. *)
Lemma happenings_cons ev h : happenings (ev :: h) = if shown ev then happenings h else core ev :: happenings h.
Proof. unfold happenings. cbn. destruct (shown ev); reflexivity. Qed.
Lemma status_happenings h n : status_of (happenings h) n = status_of h n.
Proof.
  induction h as [|ev h IH]; [reflexivity|]. rewrite happenings_cons.
  destruct ev as [| | | | | | | | | | | | | | | | | | |? ? w| |[]| | | | | | |]; cbn; try destruct w; cbn; rewrite ?IH; reflexivity.
Qed.
Lemma allocs_happenings h : allocs (happenings h) = allocs h.
Proof.
  induction h as [|ev h IH]; [reflexivity|]. rewrite happenings_cons.
  destruct ev as [| | | | | | | | | | | | | | | | | | |? ? w| |[]| | | | | | |]; cbn; try destruct w; cbn; rewrite ?IH; reflexivity.
Qed.
Lemma heap_happenings g h l : heap_of g (happenings h) l = heap_of g h l.
Proof.
  induction h as [|ev h IH]; [reflexivity|]. rewrite happenings_cons.
  destruct ev as [| | | | | | | | | | | | | | | | | | |? ? w| |[]| | | | | | |]; cbn; try destruct w; cbn; rewrite ?IH; reflexivity.
Qed.
Lemma cancelled_happenings h c : cancelledb (happenings h) c = cancelledb h c.
Proof.
  induction h as [|ev h IH]; [reflexivity|]. rewrite happenings_cons.
  destruct ev as [| | | | | | | | | | | | | | | | | | |? ? w| |[]| | | | | | |]; cbn; try destruct w; cbn; rewrite ?IH; reflexivity.
Qed.
Lemma cancelled_watched h c1 c2 : Forall watched h -> LC c1 c2 -> cancelledb h c1 = cancelledb h c2.
Proof.
  intros H HC. induction H as [|ev h Hw Hh IH]; [reflexivity|].
  destruct ev; cbn; rewrite ?IH; try reflexivity. cbn in Hw. subst i. f_equal. apply bool_decide_ext. exact HC.
Qed.
Lemma matched_cancelled h1 h2 c1 c2 : lmatched h1 h2 -> LC c1 c2 -> cancelledb h1 c1 = cancelledb h2 c2.
Proof.
  intros Hm HC. rewrite (cancelled_watched h1 c1 c2 (matched_watched _ _ Hm) HC).
  rewrite <- (cancelled_happenings h1), <- (cancelled_happenings h2), (matched_happenings _ _ Hm). reflexivity.
Qed.

Section Look.
  Context (k1 k2 : config) (tasks1 tasks2 : taskmap).
  Context (Hconf : plain_config k1 = plain_config k2) (Htasks : plain_tasks tasks1 = plain_tasks tasks2).
  Notation g := (k_vars k1).

  Notation lsim := (sim g g LM LQ LC watched LO).
  Lemma sim_ret_same r : lsim (Ret r) (Ret r).
  Proof. apply sim_ret. reflexivity. Qed.
  (** The same error, at whatever lines. *)
  Lemma sim_ret_err e1 e2 : placeless e1 = placeless e2 -> lsim (Ret (Some e1)) (Ret (Some e2)).
  Proof. intros H. apply sim_ret. unfold LO. cbn. rewrite H. reflexivity. Qed.
  Lemma keep_same w : (forall e1 e2, placeless e1 = placeless e2 -> placeless (w e1) = placeless (w e2)) -> kept_by_wrap LO w.
  Proof. intros Hw [e|] [e'|] H; try discriminate H; [|exact I]. injection H as H. unfold LO. cbn. rewrite (Hw _ _ H). reflexivity. Qed.
  Ltac keep := apply keep_same; intros ? ? Hpl; cbn; congruence.

  (** Which answers are possible is the same for both. *)
  Lemma transfer h1 h2 ev : lmatched h1 h2 ->
    match ev with OCheck _ _ _ _ | OStart _ _ | ONewCtx _ _ | OGiveUp _ _ _ _ => False | _ => True end ->
    allowed g h1 ev -> allowed g h2 ev.
  Proof.
    intros Hm Hev. pose proof (matched_happenings _ _ Hm) as Hh.
    assert (Hs : forall n, status_of h2 n = status_of h1 n) by (intros n; rewrite <- (status_happenings h1), <- (status_happenings h2), Hh; reflexivity).
    assert (Ha : allocs h2 = allocs h1) by (rewrite <- (allocs_happenings h1), <- (allocs_happenings h2), Hh; reflexivity).
    assert (Hp : forall l, heap_of g h2 l = heap_of g h1 l) by (intros l; rewrite <- (heap_happenings g h1), <- (heap_happenings g h2), Hh; reflexivity).
    destruct ev; cbn in Hev |- *; try contradiction Hev; rewrite ?Hs, ?Ha, ?Hp; intros H; try exact H.
    intros n'. rewrite Hs. exact (H n').
  Qed.

  (** The same request on both sides. *)
  Definition plain_eff (e : eff) : bool :=
    match e with
    | ECheck _ _ _ | EStart _ | ENewCtx _ | EHeader _ _ _ | EEcho _ _ _ _ | ESummary _ _ _ _ | ETui => false
    | _ => true
    end.
  Lemma sim_same e q1 q2 : plain_eff e = true -> (forall r, lsim (q1 r) (q2 r)) -> lsim (Vis e q1) (Vis e q2).
  Proof.
    intros He Hq. apply (sim_vis _ _ _ _ _ _ _ e q1 e q2 eq); [|intros r ? <-; apply Hq].
    intros h1 h2 r Hm _ Hal. exists r. split; [reflexivity|]. split.
    - apply (transfer h1 h2 _ Hm); [|exact Hal]. destruct e; try discriminate He; exact I.
    - destruct e; try discriminate He; (split; [|split]); reflexivity.
  Qed.
  Lemma sim_claim n s1 s2 q1 q2 : (forall r, lsim (q1 r) (q2 r)) -> lsim (Vis (EClaim n s1) q1) (Vis (EClaim n s2) q2).
  Proof.
    intros Hq. apply (sim_vis _ _ _ _ _ _ _ (EClaim n s1) q1 (EClaim n s2) q2 eq); [|intros r ? <-; apply Hq].
    intros h1 h2 r Hm _ Hal. exists r. split; [reflexivity|]. split.
    - exact (transfer h1 h2 (OClaim n s1 r) Hm I Hal).
    - split; [|split]; reflexivity.
  Qed.
  Lemma sim_check t i c1 c2 q1 q2 : LC c1 c2 -> (forall r, lsim (q1 r) (q2 r)) -> lsim (Vis (ECheck t i c1) q1) (Vis (ECheck t i c2) q2).
  Proof.
    intros HC Hq. apply (sim_vis _ _ _ _ _ _ _ (ECheck t i c1) q1 (ECheck t i c2) q2 eq); [|intros r ? <-; apply Hq].
    intros h1 h2 r Hm _ Hal. exists r. split; [reflexivity|]. split.
    - cbn in Hal |- *. rewrite Hal. exact (matched_cancelled h1 h2 c1 c2 Hm HC).
    - split; [|split]; reflexivity.
  Qed.
  Lemma sim_start x1 x2 q1 q2 : LC (x_ctx x1) (x_ctx x2) -> (forall b, core (OStart x1 b) = core (OStart x2 b)) ->
    (forall r, lsim (q1 r) (q2 r)) -> lsim (Vis (EStart x1) q1) (Vis (EStart x2) q2).
  Proof.
    intros HC Hx Hq. apply (sim_vis _ _ _ _ _ _ _ (EStart x1) q1 (EStart x2) q2 eq); [|intros r ? <-; apply Hq].
    intros h1 h2 r Hm _ Hal. exists r. split; [reflexivity|]. split.
    - cbn in Hal |- *. rewrite <- (matched_cancelled h1 h2 _ _ Hm HC). exact Hal.
    - split; [|split]; [reflexivity..|apply Hx].
  Qed.
  Lemma sim_returned t p r1 r2 q1 q2 : LO r1 r2 ->
    (forall r, lsim (q1 r) (q2 r)) -> lsim (Vis (ERet t p r1) q1) (Vis (ERet t p r2) q2).
  Proof.
    intros Hx Hq. apply (sim_vis _ _ _ _ _ _ _ (ERet t p r1) q1 (ERet t p r2) q2 eq); [|intros r ? <-; apply Hq].
    intros h1 h2 r Hm _ Hal. exists r. split; [reflexivity|]. split; [exact I|].
    split; [|split]; [reflexivity..|]. cbn. unfold LO in Hx. rewrite Hx. reflexivity.
  Qed.
  Lemma sim_prompt t p x1 x2 q1 q2 : plain_prompt x1 = plain_prompt x2 ->
    (forall r, lsim (q1 r) (q2 r)) -> lsim (Vis (EPrompt t p x1) q1) (Vis (EPrompt t p x2) q2).
  Proof.
    intros Hx Hq. apply (sim_vis _ _ _ _ _ _ _ (EPrompt t p x1) q1 (EPrompt t p x2) q2 eq); [|intros r ? <-; apply Hq].
    intros h1 h2 r Hm _ Hal. exists r. split; [reflexivity|]. split; [exact I|].
    split; [|split]; [reflexivity..|cbn; rewrite Hx; reflexivity].
  Qed.
  Lemma sim_log t p x lv d1 d2 q1 q2 :
    (forall r, lsim (q1 r) (q2 r)) -> lsim (Vis (ELog t p x lv d1) q1) (Vis (ELog t p x lv d2) q2).
  Proof.
    intros Hq. apply (sim_vis _ _ _ _ _ _ _ (ELog t p x lv d1) q1 (ELog t p x lv d2) q2 eq); [|intros r ? <-; apply Hq].
    intros h1 h2 r Hm _ Hal. exists r. split; [reflexivity|]. split; [exact I|].
    split; [|split]; reflexivity.
  Qed.
  Lemma sim_would_par t p n m1 m2 q1 q2 :
    (forall r, lsim (q1 r) (q2 r)) -> lsim (Vis (EWould t p (WPar n m1)) q1) (Vis (EWould t p (WPar n m2)) q2).
  Proof.
    intros Hq. apply (sim_vis _ _ _ _ _ _ _ (EWould t p (WPar n m1)) q1 (EWould t p (WPar n m2)) q2 eq); [|intros r ? <-; apply Hq].
    intros h1 h2 r Hm _ Hal. exists r. split; [reflexivity|]. split; [exact I|].
    split; [|split]; reflexivity.
  Qed.
  (** Lines that only one side shows. *)
  Definition line_eff (e : eff) : bool :=
    match e with EHeader _ _ _ | EEcho _ _ _ _ | ESummary _ _ _ _ => true | _ => false end.
  Lemma sim_line_l e q p : line_eff e = true -> (forall r, lsim (q r) p) -> lsim (Vis e q) p.
  Proof. intros He Hq. apply sim_left; [|intros r _; apply Hq]. intros r _. destruct e; try discriminate He; reflexivity. Qed.
  Lemma sim_line_r e q p : line_eff e = true -> (forall r, lsim p (q r)) -> lsim p (Vis e q).
  Proof.
    intros He Hq. apply (sim_right _ _ _ _ _ _ _ e q p (fun _ => True)); [|intros r _; apply Hq].
    intros h1 h2 _. destruct e; try discriminate He; exists tt; (split; [exact I|split; [exact I|reflexivity]]).
  Qed.
  Lemma sim_tui_l c q p : (forall i, lsim (q i true) p) -> lsim (Vis (ENewCtx c) (fun i => Vis ETui (q i))) p.
  Proof.
    intros Hq. apply sim_left; [reflexivity|]. intros i _. apply sim_left.
    - intros b Hb. cbn in Hb. subst b. reflexivity.
    - intros b Hb. cbn in Hb. subst b. apply Hq.
  Qed.
  Lemma sim_tui_r c q p : (forall i, lsim p (q i true)) -> lsim p (Vis (ENewCtx c) (fun i => Vis ETui (q i))).
  Proof.
    intros Hq. apply (sim_right _ _ _ _ _ _ _ (ENewCtx c) _ p (fun _ => True)).
    - intros h1 h2 _. exists (S (contexts h2)). split; [exact I|]. split; reflexivity.
    - intros i _. apply (sim_right _ _ _ _ _ _ _ ETui _ p (fun b => b = true)).
      + intros h1 h2 _. exists true. split; [reflexivity|]. split; [exact I|reflexivity].
      + intros b ->. apply Hq.
  Qed.

  (** ** The parts of the configuration *)
  Lemma conf_eq : k_dry k1 = k_dry k2 /\ k_vars k1 = k_vars k2 /\ k_env k1 = k_env k2 /\ k_dir k1 = k_dir k2 /\
    k_getenv k1 = k_getenv k2 /\ k_environ k1 = k_environ k2 /\ k_os k1 = k_os k2.
  Proof. unfold plain_config in Hconf. injection Hconf as -> -> -> -> -> -> ->. repeat split. Qed.

  Definition like (t1 t2 : task) : Prop :=
    t_name t1 = t_name t2 /\ t_source t1 = t_source t2 /\ t_vars t1 = t_vars t2 /\ t_env t1 = t_env t2 /\ t_dir t1 = t_dir t2 /\
    t_when t1 = t_when t2 /\ t_deps t1 = t_deps t2 /\ map plain_item (t_run t1) = map plain_item (t_run t2).
  Lemma plain_like t1 t2 : plain_task t1 = plain_task t2 -> like t1 t2.
  Proof. unfold plain_task. injection 1. intros. repeat split; assumption. Qed.

  Definition args_like (a1 a2 : args) : Prop := a_piped a1 = a_piped a2 /\ 0 ∈ a_ctx a1 /\ 0 ∈ a_ctx a2.
  Lemma LC_both c1 c2 : 0 ∈ c1 -> 0 ∈ c2 -> LC c1 c2.
  Proof. intros H1 H2. split; intros _; assumption. Qed.

  Lemma environ_like environ b1 b2 n1 n2 env order :
    List.filter (fun s => negb (colour_hint s)) (command_environ environ b1 n1 env order) =
    List.filter (fun s => negb (colour_hint s)) (command_environ environ b2 n2 env order).
  Proof.
    unfold command_environ. rewrite !List.filter_app. f_equal. f_equal.
    destruct b1, n1, b2, n2; reflexivity.
  Qed.

  Lemma sim_env ln ln' vars env f1 f2 : (forall m, lsim (f1 m) (f2 m)) ->
    lsim (interpolate_env_then k1 ln vars env f1) (interpolate_env_then k2 ln' vars env f2).
  Proof.
    intros Hf. unfold interpolate_env_then. destruct conf_eq as (_ & _ & _ & _ & <- & _).
    destruct (decide (env = ∅)); [apply Hf|]. apply sim_same; [reflexivity|]. intros order.
    destruct (interpolate_env _ _ _ _); [apply Hf|apply sim_ret_err; reflexivity].
  Qed.
  Lemma sim_dir t1 t2 pa ln ln' d vars f1 f2 : like t1 t2 -> (forall m, lsim (f1 m) (f2 m)) ->
    lsim (resolve_dir_then k1 t1 pa ln d vars f1) (resolve_dir_then k2 t2 pa ln' d vars f2).
  Proof.
    intros (Hn & Hs & _ & _ & Hd & _) Hf. unfold resolve_dir_then. destruct conf_eq as (_ & _ & _ & <- & <- & _).
    rewrite <- Hn, <- Hs, <- Hd. cbv zeta. destruct (match match d with [] => _ | _ => _ end with [] => _ | _ => _ end) as [|c d2]; [apply Hf|].
    destruct (interpolate _ _ _) as [d3|e]; [|apply sim_ret_err; reflexivity]. apply sim_same; [reflexivity|]. intros []; try apply sim_ret_same. apply Hf.
  Qed.

  Lemma sim_command c1 c2 t1 t2 pa l env a1 a2 : plain_cmd c1 = plain_cmd c2 -> like t1 t2 -> args_like a1 a2 ->
    lsim (execute_command k1 c1 t1 pa l env a1) (execute_command k2 c2 t2 pa l env a2).
  Proof.
    intros Hc Ht (Hp & Hz1 & Hz2). unfold plain_cmd in Hc. injection Hc as Hcmd Hcdir Hcenv _ _. unfold execute_command.
    pose proof Ht as (Hn & _). rewrite <- Hcmd, <- Hn, <- Hcenv, <- Hcdir.
    destruct (trim_space (c_cmd c1)); [apply sim_ret_same|]. apply sim_same; [reflexivity|]. intros vars.
    destruct conf_eq as (Hdry & _ & _ & _ & Hg & He & _). rewrite <- Hg.
    destruct (interpolate _ _ _) as [cmd|e]; [|apply sim_ret_err; reflexivity].
    apply sim_env. intros cmdenv. apply sim_dir; [exact Ht|]. intros d. rewrite <- Hdry.
    destruct (k_dry k1); [apply sim_same; [reflexivity|intros _; apply sim_ret_same]|]. cbv zeta.
    assert (Hgo : forall show1 show2, lsim
      (Vis (EOrder cmdenv) (fun order => Vis (EStart (Proc (t_name t1) pa (a_scope a1) cmd (command_environ (k_environ k1) (a_piped a1 && show1) (a_nocolor a1) cmdenv order) d show1 (negb (a_piped a1) && show1) (a_ctx a1) (a_out a1)))
         (fun started : bool => if started then Vis (EEnd (t_name t1) pa) (fun ok : bool => if ok then Ret None else Ret (Some (RCmdFailed (t_name t1) cmd))) else Ret (Some (RCmdFailed (t_name t1) cmd)))))
      (Vis (EOrder cmdenv) (fun order => Vis (EStart (Proc (t_name t1) pa (a_scope a2) cmd (command_environ (k_environ k2) (a_piped a2 && show2) (a_nocolor a2) cmdenv order) d show2 (negb (a_piped a2) && show2) (a_ctx a2) (a_out a2)))
         (fun started : bool => if started then Vis (EEnd (t_name t1) pa) (fun ok : bool => if ok then Ret None else Ret (Some (RCmdFailed (t_name t1) cmd))) else Ret (Some (RCmdFailed (t_name t1) cmd)))))).
    { intros show1 show2. apply sim_same; [reflexivity|]. intros order. apply sim_start.
      - apply LC_both; assumption.
      - intros b. cbn. rewrite <- He. f_equal. f_equal. apply environ_like.
      - intros [|]; [|apply sim_ret_same]. apply sim_same; [reflexivity|]. intros [|]; apply sim_ret_same. }
    destruct (is_silent _); destruct (is_silent _).
    - apply Hgo.
    - apply sim_line_r; [reflexivity|]. intros _. apply Hgo.
    - apply sim_line_l; [reflexivity|]. intros _. apply Hgo.
    - apply sim_line_l; [reflexivity|]. intros _. apply sim_line_r; [reflexivity|]. intros _. apply Hgo.
  Qed.

  Lemma prompt_like gv vars p1 p2 : plain_prompt p1 = plain_prompt p2 ->
    match interpolate_prompt gv vars p1, interpolate_prompt gv vars p2 with
    | Ok q1, Ok q2 => plain_prompt q1 = plain_prompt q2
    | Err e1, Err e2 => e1 = e2
    | _, _ => False
    end.
  Proof.
    destruct p1, p2. unfold plain_prompt. cbn. injection 1 as -> -> -> -> -> -> -> -> -> -> -> -> ->. unfold interpolate_prompt. cbn.
    repeat match goal with |- context [match ?x with Ok _ => _ | Err _ => _ end] => 
      lazymatch x with match _ with Ok _ => _ | Err _ => _ end => fail | _ => destruct x; cbn; try reflexivity end end.
  Qed.

  Section Calls.
    Context (rt1 rt2 : str -> args -> prog).
    Context (Hrt : forall n a1 a2, args_like a1 a2 -> lsim (rt1 n a1) (rt2 n a2)).

    Lemma sim_run_item it1 it2 t1 t2 pa l env a1 a2 : plain_item it1 = plain_item it2 -> like t1 t2 -> args_like a1 a2 ->
      lsim (execute_run_item k1 rt1 it1 t1 pa l env a1) (execute_run_item k2 rt2 it2 t2 pa l env a2).
    Proof.
      intros Hit Ht Ha. pose proof Ht as (Hn & _). destruct conf_eq as (Hdry & _ & _ & _ & Hg & _).
      destruct it1 as [c1|r1|l1|p1|o1 i1], it2 as [c2|r2|l2|p2|o2 i2]; try discriminate Hit; cbn [execute_run_item].
      - apply sim_command; [|assumption..]. cbn in Hit. injection Hit. intros. unfold plain_cmd. congruence.
      - cbn in Hit. injection Hit as Hr _ _. rewrite <- Hn, <- Hr, <- Hdry. destruct (k_dry k1); [apply sim_same; [reflexivity|intros _; apply sim_ret_same]|].
        apply Hrt. destruct Ha as [Hp HC]. split; [exact Hp|exact HC].
      - cbn in Hit. injection Hit as Hl Hlv _ _. rewrite <- Hn, <- Hl, <- Hlv, <- Hdry, <- Hg. apply sim_same; [reflexivity|]. intros vars.
        destruct (interpolate _ _ _); [|apply sim_ret_err; reflexivity]. destruct (k_dry k1); [apply sim_same; [reflexivity|intros _; apply sim_ret_same]|].
        apply sim_log. intros _. apply sim_ret_same.
      - apply sim_ret_same.
      - apply sim_ret_same.
    Qed.

    Lemma sim_pre_deps deps seen a1 a2 q1 q2 : args_like a1 a2 -> (forall s, lsim (q1 s) (q2 s)) ->
      lsim (pre_deps rt1 deps seen a1 q1) (pre_deps rt2 deps seen a2 q2).
    Proof.
      intros Ha Hq. revert seen. induction deps as [|d r IH]; intros seen; cbn [pre_deps]; [apply Hq|].
      destruct (decide (d ∈ seen)); [apply IH|]. apply sim_same; [reflexivity|]. intros [| |].
      - apply sim_and_then; [keep|apply Hrt; exact Ha|apply IH].
      - apply sim_and_then; [keep|apply Hrt; exact Ha|apply IH].
      - apply IH.
    Qed.
    Lemma tasks_like n : match tasks1 !! n, tasks2 !! n with
                         | None, None => True | Some t1, Some t2 => like t1 t2 | _, _ => False end.
    Proof.
      pose proof (f_equal (fun m : taskmap => m !! n) Htasks) as H. cbn in H. unfold plain_tasks in H. rewrite !lookup_fmap in H.
      destruct (tasks1 !! n), (tasks2 !! n); try discriminate H; [|exact I]. apply plain_like. cbn in H. injection H. intros. unfold plain_task. congruence.
    Qed.
    Lemma sim_pre_resolve items1 items2 seen a1 a2 : map plain_item items1 = map plain_item items2 -> args_like a1 a2 ->
      lsim (pre_resolve tasks1 rt1 items1 seen a1) (pre_resolve tasks2 rt2 items2 seen a2).
    Proof.
      intros Hi Ha. revert items2 seen Hi. induction items1 as [|i1 r1 IH]; intros [|i2 r2] seen Hi; try discriminate Hi; [apply sim_ret_same|].
      cbn [map] in Hi. injection Hi as Hi Hr.
      destruct i1, i2; try discriminate Hi; cbn [pre_resolve]; try (apply IH; exact Hr).
      cbn in Hi. injection Hi as Hn _ _. rewrite <- Hn. pose proof (tasks_like (r_task t)) as Hl.
      destruct (tasks1 !! r_task t) as [t1|], (tasks2 !! r_task t) as [t2|]; try contradiction Hl; [|apply sim_ret_same].
      destruct Hl as (_ & _ & _ & _ & _ & _ & <- & _). apply sim_pre_deps; [exact Ha|]. intros s. apply IH. exact Hr.
    Qed.

    Lemma sim_fork_items o1 o2 items1 items2 t1 t2 pa l env c1 c2 sub1 sub2 q1 q2 :
      q_limit o1 = q_limit o2 -> map plain_item items1 = map plain_item items2 -> like t1 t2 -> LC c1 c2 ->
      (forall j, args_like (sub1 j) (sub2 j)) -> (forall l1 l2, LO (first_err l1) (first_err l2) -> lsim (q1 l1) (q2 l2)) ->
      lsim (fork k1 rt1 o1 items1 t1 pa l env c1 sub1 q1) (fork k2 rt2 o2 items2 t2 pa l env c2 sub2 q2).
    Proof.
      intros Ho Hi Ht HC Hs Hq. unfold fork. pose proof Ht as (Hn & _). rewrite <- Hn, <- Ho.
      assert (Hlen : length items1 = length items2) by (rewrite <- (map_length plain_item items1), Hi; apply map_length).
      apply sim_fork; [exact HC| |constructor| |].
      - apply list_eq. intros j. rewrite !list_lookup_fmap, !list_lookup_imap.
        destruct (items1 !! j) eqn:E1, (items2 !! j) eqn:E2; cbn; try reflexivity.
        + apply lookup_lt_Some in E1. apply lookup_ge_None in E2. lia.
        + apply lookup_lt_Some in E2. apply lookup_ge_None in E1. lia.
      - intros j s1 s2 p1 p2 H1 H2. rewrite list_lookup_imap in H1, H2.
        destruct (items1 !! j) as [x1|] eqn:E1; [|discriminate H1]. destruct (items2 !! j) as [x2|] eqn:E2; [|discriminate H2].
        cbn in H1, H2. injection H1 as <- <-. injection H2 as <- <-. apply sim_run_item; [|exact Ht|apply Hs].
        pose proof (f_equal (fun m => m !! j) Hi) as H. cbn in H. change (map plain_item items1) with (plain_item <$> items1) in H.
        change (map plain_item items2) with (plain_item <$> items2) in H. rewrite !list_lookup_fmap, E1, E2 in H. cbn in H. injection H. intros; congruence.
      - intros l1 l2 Hl. apply Hq.
        induction Hl as [|[j1 r1] [j2 r2] l1 l2 [H1 H2] Hl IH]; [reflexivity|]. cbn in H1, H2. subst j2.
        unfold first_err in *. cbn. destruct r1 as [e1|], r2 as [e2|]; try discriminate H2; [|exact IH].
        injection H2 as H2. unfold LO. cbn. rewrite H2. reflexivity.
    Qed.

    (** A block, in a TUI or not. *)
    Definition in_tui (o : par_opts) (k : config) (a : args) : bool :=
      is_tui_mode (q_mode o) && k_terminal k && (negb (a_piped a) || a_in_tui a).

    (** What a block does after its items returned shows at most a summary. *)
    Lemma sim_finish_r (b : bool) n pa fine d r p : lsim p (Ret r) -> lsim p (if b then Ret r else Vis (ESummary n pa fine d) (fun _ => Ret r)).
    Proof. intros H. destruct b; [exact H|]. apply sim_line_r; [reflexivity|]. intros _. exact H. Qed.
    Lemma sim_finish_l (b : bool) n pa fine d r p : lsim (Ret r) p -> lsim (if b then Ret r else Vis (ESummary n pa fine d) (fun _ => Ret r)) p.
    Proof. intros H. destruct b; [exact H|]. apply sim_line_l; [reflexivity|]. intros _. exact H. Qed.

    Lemma sim_parallel o1 o2 items1 items2 t1 t2 pa l env a1 a2 :
      plain_block o1 = plain_block o2 -> map plain_item items1 = map plain_item items2 -> like t1 t2 -> args_like a1 a2 ->
      lsim (execute_parallel k1 tasks1 rt1 o1 items1 t1 pa l env a1) (execute_parallel k2 tasks2 rt2 o2 items2 t2 pa l env a2).
    Proof.
      intros Ho Hi Ht (Hp & Hz1 & Hz2). unfold execute_parallel.
      assert (Hlim : q_limit o1 = q_limit o2) by (unfold plain_block in Ho; injection Ho; auto).
      assert (Hlen : length items1 = length items2) by (rewrite <- (map_length plain_item items1), Hi; apply map_length).
      destruct conf_eq as (Hdry & _). pose proof Ht as (Hn & _).
      apply sim_and_then; [keep|apply sim_pre_resolve; [exact Hi|repeat split; assumption]|].
      rewrite <- Hdry, <- Hlen. destruct (k_dry k1); [rewrite <- Hn; apply sim_would_par; intros _; apply sim_ret_same|].
      assert (Hz1' : forall i, 0 ∈ i :: a_ctx a1) by (intros i; right; exact Hz1).
      assert (Hz2' : forall i, 0 ∈ i :: a_ctx a2) by (intros i; right; exact Hz2).
      fold (in_tui o1 k1 a1) (in_tui o2 k2 a2). destruct (in_tui o1 k1 a1), (in_tui o2 k2 a2); unfold execute_tui, execute_interleaved; cbn [a_tui a_ctx a_out a_silent a_output a_nocolor a_scope];
        repeat match goal with
          | |- lsim (match a_tui ?a with _ => _ end) _ => destruct (a_tui a) as [?|]; [|apply sim_tui_l; intros ?; cbn [Datatypes.id]]
          | |- lsim _ (match a_tui ?a with _ => _ end) => destruct (a_tui a) as [?|]; [|apply sim_tui_r; intros ?]
          end;
        (apply sim_fork_items; [exact Hlim|exact Hi|exact Ht|apply LC_both; auto|
           intros j; split; [reflexivity|split; cbn [a_ctx]; auto]|intros log log' HO]);
        first [apply sim_ret; exact HO | apply sim_finish_l | apply sim_finish_r]; first [apply sim_ret; exact HO | apply sim_finish_r]; apply sim_ret; exact HO.
    Qed.

    Lemma sim_item it1 it2 t1 t2 i l env a1 a2 : plain_item it1 = plain_item it2 -> like t1 t2 -> args_like a1 a2 ->
      lsim (execute_item k1 tasks1 rt1 it1 t1 i l env a1) (execute_item k2 tasks2 rt2 it2 t2 i l env a2).
    Proof.
      intros Hit Ht Ha. pose proof Ht as (Hn & _). destruct conf_eq as (Hdry & _ & _ & _ & Hg & _).
      destruct it1 as [c1|r1|l1|p1|o1 i1], it2 as [c2|r2|l2|p2|o2 i2]; try discriminate Hit; unfold execute_item;
        try (apply sim_run_item; assumption).
      - rewrite <- Hn, <- Hdry, <- Hg. apply sim_same; [reflexivity|]. intros vars.
        assert (Hp : plain_prompt p1 = plain_prompt p2) by (cbn in Hit; injection Hit; intros; unfold plain_prompt; congruence).
        assert (Hv : p_prompt p1 = p_prompt p2) by (cbn in Hit; injection Hit; auto).
        pose proof (prompt_like (k_getenv k1) vars p1 p2 Hp) as Hl.
        destruct (interpolate_prompt _ _ p1) as [q1|e1], (interpolate_prompt _ _ p2) as [q2|e2]; try contradiction Hl; [|subst e2; apply sim_ret_err; reflexivity].
        destruct (k_dry k1).
        + unfold plain_prompt in Hl. injection Hl as -> -> -> _. apply sim_same; [reflexivity|]. intros _. apply sim_ret_same.
        + apply sim_prompt; [exact Hl|]. rewrite <- Hv. intros [v|]; [|apply sim_ret_same]. apply sim_same; [reflexivity|]. intros _. apply sim_ret_same.
      - cbn in Hit. injection Hit as Hlim Hpl Hwh Hi.
        assert (Hb : plain_block o1 = plain_block o2) by (unfold plain_block; congruence).
        assert (Hlen : length i1 = length i2) by (rewrite <- (map_length plain_item i1), Hi; apply map_length).
        rewrite <- Hn, <- Hdry, <- Hlen. destruct (k_dry k1); [apply sim_would_par; intros _; apply sim_ret_same|].
        apply sim_same; [reflexivity|]. intros vars. apply sim_same; [reflexivity|]. intros l'.
        apply sim_parallel; assumption.
    Qed.

    Lemma when_like it1 it2 : plain_item it1 = plain_item it2 -> item_when it1 = item_when it2 /\ item_platforms it1 = item_platforms it2.
    Proof. destruct it1, it2; try discriminate; cbn; injection 1; intros; split; assumption. Qed.

    Lemma sim_items items1 items2 t1 t2 i x s l env a1 a2 : map plain_item items1 = map plain_item items2 -> like t1 t2 -> args_like a1 a2 ->
      lsim (execute_items k1 tasks1 rt1 items1 t1 i x s l env a1) (execute_items k2 tasks2 rt2 items2 t2 i x s l env a2).
    Proof.
      intros Hi Ht Ha. pose proof Ht as (Hn & _). destruct conf_eq as (_ & _ & _ & _ & Hg & _ & Hos).
      revert items2 i x s Hi. induction items1 as [|it1 r1 IH]; intros [|it2 r2] i x s Hi; try discriminate Hi; cbn [execute_items].
      - rewrite <- Hn. destruct x, s; apply sim_ret_same.
      - cbn [map] in Hi. injection Hi as Hit Hr. destruct (when_like it1 it2 Hit) as [<- <-]. rewrite <- Hn, <- Hg, <- Hos.
        apply sim_check; [apply LC_both; apply Ha|]. intros [|]; [apply sim_ret_same|].
        destruct (negb _); [apply sim_same; [reflexivity|intros _; apply IH; exact Hr]|].
        cbv zeta.
        match goal with |- context [match item_when it1 with [] => ?p | _ => _ end] => 
          match goal with |- context [lsim _ (match item_when it1 with [] => ?q | _ => _ end)] => assert (Hgo : lsim p q) end end.
        { apply sim_bind; [apply sim_item; assumption|]. intros [r|] [r'|] HO; try discriminate HO; (apply sim_returned; [exact HO|]); intros _; [|apply IH; exact Hr].
          apply sim_ret. exact HO. }
        destruct (item_when it1); [exact Hgo|]. apply sim_same; [reflexivity|]. intros vars.
        destruct (evaluate _ _ _) as [[|]|e]; [exact Hgo| |apply sim_ret_err; reflexivity].
        apply sim_same; [reflexivity|]. intros _. apply IH. exact Hr.
    Qed.

    Lemma sim_task t1 t2 a1 a2 : like t1 t2 -> args_like a1 a2 ->
      lsim (execute_task k1 tasks1 rt1 t1 a1) (execute_task k2 tasks2 rt2 t2 a2).
    Proof.
      intros Ht Ha. pose proof Ht as (Hn & _ & Hv & He & _ & _ & _ & Hrun). destruct conf_eq as (_ & _ & Hke & _ & Hg & _).
      unfold execute_task. rewrite <- Hn, <- Hv, <- He, <- Hke, <- Hg. destruct (t_vars t1) as [vs|].
      - apply sim_same; [reflexivity|]. intros order. apply sim_same; [reflexivity|]. intros globals.
        destruct (resolve_vars _ _ _ _); [|apply sim_ret_err; reflexivity]. apply sim_same; [reflexivity|]. intros l.
        apply sim_env. intros env. apply sim_items; assumption.
      - apply sim_same; [reflexivity|]. intros vars. apply sim_env. intros env. apply sim_items; assumption.
    Qed.

    Lemma sim_deps n deps a1 a2 q1 q2 : args_like a1 a2 -> lsim q1 q2 -> lsim (run_deps rt1 n deps a1 q1) (run_deps rt2 n deps a2 q2).
    Proof.
      intros Ha Hq. induction deps as [|d r IH]; cbn [run_deps]; [exact Hq|].
      apply sim_and_then; [keep| |exact IH]. apply Hrt. destruct Ha as (Hp & Hz1 & Hz2). repeat split; assumption.
    Qed.
  End Calls.

  Lemma chain_like fuel current st chain last seen :
    build_chain fuel current tasks1 st chain last seen = build_chain fuel current tasks2 st chain last seen.
  Proof.
    revert chain last seen. induction fuel as [|n IH]; intros chain last seen; cbn [build_chain]; [reflexivity|].
    destruct (decide (last ∈ seen)); [reflexivity|]. pose proof (tasks_like last) as Hl.
    destruct (tasks1 !! last) as [t1|], (tasks2 !! last) as [t2|]; try contradiction Hl; [|reflexivity].
    destruct Hl as (_ & _ & _ & _ & _ & _ & <- & _). destruct (filter _ (t_deps t1)) as [|d r]; [reflexivity|].
    destruct (decide (d = current)); [reflexivity|apply IH].
  Qed.
  Lemma size_like : size tasks1 = size tasks2.
  Proof. rewrite <- (map_size_fmap plain_task tasks1), <- (map_size_fmap plain_task tasks2). exact (f_equal size Htasks). Qed.

  Lemma sim_run_task fuel : forall n a1 a2, args_like a1 a2 -> lsim (run_task k1 tasks1 fuel n a1) (run_task k2 tasks2 fuel n a2).
  Proof.
    induction fuel as [|f IH]; intros n a1 a2 Ha; cbn [run_task]; [apply sim_ret_same|].
    apply sim_claim. intros [| |]; [|..|apply sim_ret_same].
    - pose proof (tasks_like n) as Hl. destruct (tasks1 !! n) as [t1|], (tasks2 !! n) as [t2|]; try contradiction Hl; [|apply sim_ret_same].
      pose proof Hl as (_ & _ & _ & _ & _ & <- & Hd & Hrun). destruct conf_eq as (_ & _ & _ & _ & Hg & _). rewrite <- Hd, <- Hg. cbv zeta.
      match goal with |- lsim (match t_when t1 with [] => ?p | _ => _ end) (match _ with [] => ?q | _ => _ end) => assert (Hbody : lsim p q) end.
      { match goal with |- lsim (if ?b1 then Vis ?e1 (fun _ => ?p) else _) (if ?b2 then Vis ?e2 (fun _ => ?q) else _) =>
          assert (Hrest : lsim p q); [|destruct b1, b2; [apply sim_line_l; [reflexivity|]; intros _; apply sim_line_r; [reflexivity|]; intros _
            |apply sim_line_l; [reflexivity|]; intros _|apply sim_line_r; [reflexivity|]; intros _|]; exact Hrest] end.
        apply sim_deps; [exact IH|exact Ha|].
        assert (Hfin : lsim (Vis (EDone n) (fun _ => Ret None)) (Vis (EDone n) (fun _ => Ret None))) by (apply sim_same; [reflexivity|intros _; apply sim_ret_same]).
        destruct (t_run t1) as [|i1 r1] eqn:E1, (t_run t2) as [|i2 r2] eqn:E2; try discriminate Hrun; [exact Hfin|].
        apply sim_and_then; [keep|apply sim_task; [exact IH|exact Hl|exact Ha]|exact Hfin]. }
      destruct (t_when t1); [exact Hbody|]. apply sim_same; [reflexivity|]. intros globals.
      destruct (evaluate _ _ _) as [[|]|e]; [exact Hbody| |apply sim_ret_err; reflexivity].
      apply sim_same; [reflexivity|]. intros _. apply sim_same; [reflexivity|]. intros _. apply sim_ret_same.
    - apply sim_same; [reflexivity|]. intros m. unfold build_chain_slice. rewrite <- size_like, <- chain_like. apply sim_ret_same.
  Qed.

  Lemma look_sim root : lsim (run_with_tasks k1 tasks1 root) (run_with_tasks k2 tasks2 root).
  Proof.
    unfold run_with_tasks. rewrite <- size_like. apply sim_run_task. repeat split; left.
  Qed.

  Lemma look_run root h r : rtc (cstep (k_vars k1)) ([], run_with_tasks k1 tasks1 root) (h, Ret r) -> Forall watched h ->
    exists h' r', rtc (cstep (k_vars k2)) ([], run_with_tasks k2 tasks2 root) (h', Ret r') /\ placeless <$> r' = placeless <$> r /\ happenings h' = happenings h.
  Proof.
    intros Hrun Hw. destruct conf_eq as (_ & <- & _).
    destruct (sim_run_end g g LM LQ LC watched LO) with (p1 := run_with_tasks k1 tasks1 root) (p2 := run_with_tasks k2 tasks2 root) (h1 := h) (r := r) as (h' & r' & Hrun' & Hm & HO);
      try (intros; subst; split; [|split]; [reflexivity..|cbn; unfold LO in *; congruence]).
    - intros h1 h2 c1 c2 Hm HC Hc. rewrite <- (matched_cancelled h1 h2 c1 c2 Hm HC). exact Hc.
    - apply look_sim.
    - exact Hrun.
    - exact Hw.
    - exists h', r'. split; [exact Hrun'|]. split; [symmetry; exact HO|]. symmetry. apply matched_happenings. exact Hm.
  Qed.
  Lemma look_prefix root h p : rtc (cstep (k_vars k1)) ([], run_with_tasks k1 tasks1 root) (h, p) -> Forall watched h ->
    exists h' p', rtc (cstep (k_vars k2)) ([], run_with_tasks k2 tasks2 root) (h', p') /\ happenings h' = happenings h.
  Proof.
    intros Hrun Hw. destruct conf_eq as (_ & <- & _).
    destruct (sim_run g g LM LQ LC watched LO) with (p1 := run_with_tasks k1 tasks1 root) (p2 := run_with_tasks k2 tasks2 root) (h1 := h) (p1' := p) as (h' & p' & Hrun' & Hm & _);
      try (intros; subst; split; [|split]; [reflexivity..|cbn; unfold LO in *; congruence]).
    - intros h1 h2 c1 c2 Hm HC Hc. rewrite <- (matched_cancelled h1 h2 c1 c2 Hm HC). exact Hc.
    - apply look_sim.
    - exact Hrun.
    - exact Hw.
    - exists h', p'. split; [exact Hrun'|]. symmetry. apply matched_happenings. exact Hm.
  Qed.
End Look.
