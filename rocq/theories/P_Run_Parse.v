(** Theorems about runs of a parsed Babfile: C17, C35, C62, C63. *)
From Verif Require Import Base Interp_Model Interp_Spec Cond_Model Types_Model Valid_Model Valid_Spec Path_Model Path_Proof Include_Model Include_Spec
  Include_Proof P_Valid P_Include Run_Model Run_Logic Run_Inv Run_Proof Run_Facts Run_Drive P_Run P_Run_Cmd Run_Main.
From Verif Require Run_Spec.
Notation reached := Run_Spec.reached.
Notation reason := Run_Spec.reason.
Notation item_at := Run_Spec.item_at.
Notation sees := Run_Spec.sees.

Definition world_ok (w : world) : Prop := oracle_ok (w_orc w) /\ vorc_ok (w_vorc w).

Lemma pstep_vis e k ev p' : pstep (Vis e k) ev p' -> exists r, ev = obs e r /\ p' = k r.
Proof.
  intros H.
  assert (G : forall q, pstep q ev p' -> match q with Vis e k => exists r, ev = obs e r /\ p' = k r | _ => True end) by (destruct 1; eauto).
  exact (G _ H).
Qed.

Lemma load_inv w dry path name k tasks root : load w dry path name = Ok (k, tasks, root) ->
  exists r vars, parse (w_fs w) (w_orc w) (w_grow w) (w_vorc w) (w_cwd w) path = Ok r /\
    resolve_vars (w_getenv w) (pr_vars r) None (w_order w (smap_get (pr_vars r))) = Ok vars /\
    k = loaded w dry r vars /\ tasks = pr_tasks r /\ root = resolve_task_name (pr_aliases r) name.
Proof.
  unfold load. destruct (parse _ _ _ _ _ _) as [r|e] eqn:E; [|discriminate]. destruct (resolve_vars _ _ _ _) as [vars|e] eqn:Ev; [|discriminate].
  intros H. injection H as <- <- <-. eauto 10.
Qed.

(** Tasks are stored under their own names. *)
Lemma parse_keyed fs orc grow vorc cwd path r : oracle_ok orc -> vorc_ok vorc -> parse fs orc grow vorc cwd path = Ok r -> keyed (pr_tasks r).
Proof.
  intros Ho Hv H n t Hn. destruct (proj1 (C12_tasks_are_exactly_the_tree _ _ _ _ _ _ _ Ho Hv H) n) as [Hex _].
  destruct Hex as (nss & via & f & m & t0 & Hor & ->); [eauto|].
  destruct (C14_references_are_namespaced _ _ _ _ _ _ _ _ _ _ _ _ Ho Hv H Hor) as (t' & Ht' & Hp & _).
  rewrite Hn in Ht'. injection Ht' as <-. apply (pn_name _ _ _ _ _ Hp).
Qed.

(** ** Which tasks a run can come to *)
Lemma refers_in items r i : items !! i = Some (RTask r) -> refers items (r_task r).
Proof. revert i. induction items as [|it items IH]; intros i H; [destruct i; discriminate|]. destruct i; simpl in H; [injection H as ->; constructor|]. apply refers_later. eauto. Qed.
Lemma refers_block items o sub i n : items !! i = Some (RPar o sub) -> refers sub n -> refers items n.
Proof. revert i. induction items as [|it items IH]; intros i H Hn; [destruct i; discriminate|]. destruct i; simpl in H; [injection H as ->; constructor; exact Hn|]. apply refers_later. eauto. Qed.

Lemma reached_rtc tasks root n s : reached tasks root n s -> rtc (edge tasks) root n.
Proof.
  induction 1 as [|T t s d Hr IH Ht Hd|T t s i r Hr IH Ht Hi|T t s i o items j r Hr IH Ht Hi Hj|T t s i o items r t' d Hr IH Ht Hi Hin Ht' Hd].
  - reflexivity.
  - eapply rtc_r; [exact IH|]. exists t. auto.
  - eapply rtc_r; [exact IH|]. exists t. split; [exact Ht|]. right. eapply refers_in. exact Hi.
  - eapply rtc_r; [exact IH|]. exists t. split; [exact Ht|]. right. eapply refers_block; [exact Hi|]. eapply refers_in. exact Hj.
  - eapply rtc_r; [eapply rtc_r; [exact IH|]|].
    + exists t. split; [exact Ht|]. right. eapply refers_block; [exact Hi|]. apply elem_of_list_lookup in Hin as [j Hj]. eapply refers_in. exact Hj.
    + exists t'. auto.
Qed.

(** C63. Whatever acts in a run is the task asked for or something it leads to. *)
Theorem C63_only_what_was_asked_for k tasks root h p ev T pa : keyed tasks -> run_of k tasks root h p -> ev ∈ h -> action ev = Some (T, pa) ->
  rtc (edge tasks) root T.
Proof.
  intros Hk Hr Hin Ha. pose proof (run_good k tasks root Hk _ _ Hr) as Hg.
  destruct (good_in _ _ _ _ Hg Hin) as (h0 & Hs & _). pose proof (good_suffix _ _ _ _ Hs Hg) as Hg0.
  apply action_acts in Ha. destruct (act_claim k tasks root _ _ _ Hg0 (acts_tok _ _ _ Ha)) as (sc & Hc). simpl in Hc.
  apply good_tail in Hg0 as (Hg0 & _). destruct (good_in _ _ _ _ Hg0 Hc) as (h1 & _ & _ & _ & [_ [_ H]]). eapply reached_rtc. exact H.
Qed.
(** The same for announcements, conditions, and everything else done for a task. *)
Theorem C63_only_claimed k tasks root h p T sc s : keyed tasks -> run_of k tasks root h p -> OClaim T sc s ∈ h -> rtc (edge tasks) root T.
Proof.
  intros Hk Hr Hin. pose proof (run_good k tasks root Hk _ _ Hr) as Hg.
  destruct (good_in _ _ _ _ Hg Hin) as (h1 & _ & _ & _ & [_ [_ H]]). eapply reached_rtc. exact H.
Qed.

(** C62. The reason of a failed run is something that happened in it, or something
    in the tasks: see [err_ok], one line for every kind of error. *)
Theorem C62_failure_has_a_cause k tasks root h e : keyed tasks -> run_of k tasks root h (Ret (Some e)) -> err_ok k tasks root h e.
Proof. intros Hk Hr. exact (proj2 (run_sound k tasks root Hk h _ Hr) (Some e) eq_refl). Qed.

(** ** C35 *)
Section C35.
  Context (w : world) (Hw : world_ok w) (dry : bool) (path name : str) (k : config) (tasks : taskmap) (root : str).
  Context (Hl : load w dry path name = Ok (k, tasks, root)).

  Lemma load_keyed : keyed tasks.
  Proof. destruct (load_inv _ _ _ _ _ _ _ Hl) as (r & vars & Hp & _ & _ & -> & _). eapply parse_keyed; [apply Hw|apply Hw|exact Hp]. Qed.
  Lemma load_closed a n : edge tasks a n -> is_Some (tasks !! n).
  Proof.
    destruct (load_inv _ _ _ _ _ _ _ Hl) as (r & vars & Hp & _ & _ & -> & _).
    eapply C08_parse_leaves_no_dangling_reference; [apply Hw|apply Hw|exact Hp].
  Qed.
  Lemma rtc_known n : is_Some (tasks !! root) -> rtc (edge tasks) root n -> is_Some (tasks !! n).
  Proof. intros Hroot Hr. apply rtc_inv_r in Hr as [<-|(y & _ & He)]; [exact Hroot|]. eapply load_closed. exact He. Qed.

  (** The name given is a task or an alias: no run ever comes to an unknown task. *)
  Theorem C35_known_name_never_unknown h p : is_Some (tasks !! name) \/ (exists n i, declares tasks n i name) -> run_of k tasks root h p ->
    is_Some (tasks !! root) /\
    (forall T sc s, OClaim T sc s ∈ h -> is_Some (tasks !! T)) /\
    forall e n, p = Ret (Some e) -> reason e <> RNotFound n /\ reason e <> RUnknownRef n.
  Proof.
    intros Hname Hr. pose proof load_keyed as Hk.
    assert (Hroot : is_Some (tasks !! root)).
    { destruct (load_inv _ _ _ _ _ _ _ Hl) as (r & vars & Hp & _ & _ & E & ->). rewrite E in *.
      destruct (C11_parse_aliases _ _ _ _ _ _ _ (proj1 Hw) (proj2 Hw) Hp) as [Ha1 Ha2]. unfold resolve_task_name.
      destruct (pr_aliases r !! name) as [n|] eqn:Ea; simpl.
      - apply Ha1 in Ea as (i & t & Ht & _). eauto.
      - destruct Hname as [H|(n & i & H)]; [exact H|]. exfalso. assert (pr_aliases r !! name = Some n) by (apply Ha1; eauto). congruence. }
    split; [exact Hroot|]. split.
    - intros T sc s Hin. apply rtc_known; [exact Hroot|]. eapply C63_only_claimed; eassumption.
    - intros e n ->. pose proof (C62_failure_has_a_cause k tasks root h e Hk Hr) as He.
      assert (Hno : forall n', tasks !! n' = None -> ((exists s, reached tasks root n' s) \/
           (exists m s t i o items r, reached tasks root m s /\ tasks !! m = Some t /\ t_run t !! i = Some (RPar o items) /\ RTask r ∈ items /\ r_task r = n')) -> False).
      { intros n' Hn [(s & H)|(m & s & t & i & o & items & r & H & Ht & Hi & Hin & <-)].
        - apply reached_rtc in H. apply rtc_known in H as [t Ht]; [congruence|exact Hroot].
        - assert (edge tasks m (r_task r)) as Hedge.
          { exists t. split; [exact Ht|]. right. eapply refers_block; [exact Hi|]. apply elem_of_list_lookup in Hin as [j Hj]. eapply refers_in. exact Hj. }
          apply load_closed in Hedge as [t' Ht']. congruence. }
      unfold err_ok in He. split; intros E; rewrite E in He.
      + destruct He as (H1 & s & H2 & _). exact (Hno n H1 (or_introl (ex_intro _ s H2))).
      + destruct He as (H1 & m & s & i & o & items & r & H2 & (t & Ht & Hi & _) & Hin & Hrn). inversion Hi; subst.
        apply (Hno (r_task r) H1). right. exists m, s, t, i, o, items, r. auto.
  Qed.

  (** Any other name: nothing is done at all, and the run fails with that name. *)
  Theorem C35_unknown_name_runs_nothing h p : tasks !! name = None -> (forall n i, ~ declares tasks n i name) -> run_of k tasks root h p ->
    root = name /\ (forall ev, ev ∈ h -> ev = OClaim name [] Fresh \/ exists i, ev = OCancel i) /\
    (forall r, p = Ret r -> r = Some (RNotFound name)) /\
    (p = run_with_tasks k tasks root \/ exists r, p = Ret r).
  Proof.
    intros Hn Hd Hr.
    assert (Hroot : root = name).
    { destruct (load_inv _ _ _ _ _ _ _ Hl) as (r & vars & Hp & _ & _ & E & ->). rewrite E in *.
      destruct (C11_parse_aliases _ _ _ _ _ _ _ (proj1 Hw) (proj2 Hw) Hp) as [Ha1 Ha2]. unfold resolve_task_name.
      destruct (pr_aliases r !! name) as [n|] eqn:Ea; [|reflexivity]. apply Ha1 in Ea as (i & H). exfalso. exact (Hd n i H). }
    split; [exact Hroot|]. rewrite Hroot in Hr. unfold Run_Proof.run_of in Hr.
    assert (Hinv : forall s, rtc (cstep (k_vars k)) ([], run_with_tasks k tasks name) s ->
      (s.2 = run_with_tasks k tasks name /\ Forall (fun ev => exists i, ev = OCancel i) s.1) \/
      (s.2 = Ret (Some (RNotFound name)) /\ Forall (fun ev => ev = OClaim name [] Fresh \/ exists i, ev = OCancel i) s.1)).
    { clear Hr h p. refine (rtc_ind_r _ _ _ _); [|intros s1 s2 _ Hstep IH].
      - left. split; [reflexivity|constructor].
      - destruct IH as [[E H]|[E H]].
        + destruct Hstep as [h q ev q' Hp Ha|h q i]; simpl in *; [|left; split; [exact E|constructor; [eauto|exact H]]].
          right. subst q. unfold run_with_tasks in Hp. simpl in Hp. apply pstep_vis in Hp as (s & -> & ->). simpl in Ha. subst s.
          assert (Hst : status_of h name = Fresh).
          { clear -H. induction H as [|ev h [i ->] _ IH]; [reflexivity|exact IH]. }
          rewrite Hst, Hn. simpl. split; [reflexivity|]. constructor; [left; reflexivity|]. eapply Forall_impl; [exact H|]. simpl. auto.
        + destruct Hstep as [h q ev q' Hp Ha|h q i]; simpl in *; [subst q; inversion Hp|].
          right; split; [exact E|constructor; [eauto|exact H]]. }
    destruct (Hinv _ Hr) as [[E H]|[E H]]; simpl in E, H; rewrite Forall_forall in H.
    - split; [intros ev Hev; right; apply H; exact Hev|]. split; [|left; rewrite Hroot; exact E].
      intros r ->. discriminate E.
    - split; [exact H|]. split; [|eauto]. intros r Hp. congruence.
  Qed.
End C35.

(** ** C17 *)
Lemma abs_split f : is_abs f = true -> exists q n, f = q ++ slash :: n /\ slash ∉ n /\ is_abs (q ++ [slash]) = true.
Proof.
  intros Ha. assert (Hin : slash ∈ f) by (destruct f as [|c f]; [discriminate|]; simpl in Ha; apply bool_decide_eq_true in Ha; subst c; left).
  assert (Hlast : exists q n, f = q ++ slash :: n /\ slash ∉ n).
  { clear Ha. induction f as [|c f IH]; [inversion Hin|]. destruct (decide (slash ∈ f)) as [H|H].
    - destruct (IH H) as (q & n & -> & Hn). exists (c :: q), n. auto.
    - inversion Hin; subst; [exists [], f; auto|contradiction]. }
  destruct Hlast as (q & n & -> & Hn). exists q, n. split; [reflexivity|]. split; [exact Hn|]. destruct q; exact Ha.
Qed.
Lemma spelled_abs pl : is_abs (spelled pl) = true.
Proof. reflexivity. Qed.
Lemma dir_abs f : is_abs f = true -> is_abs (dir f) = true.
Proof. intros H. destruct (abs_split f H) as (q & n & -> & Hn & Ha). rewrite dir_place by assumption. reflexivity. Qed.
Lemma points_abs path p q : is_abs path = true -> points_to path p q -> is_abs q = true.
Proof.
  intros Ha ->. apply clean_abs. destruct (is_abs p) eqn:E; [exact E|]. rewrite join_place by (apply dir_abs; exact Ha). reflexivity.
Qed.
Lemma leads_abs fs path nss via f bf : leads fs path nss via f bf -> is_abs path = true -> is_abs f = true.
Proof. induction 1 as [|path bf0 ns p path' bf' nss via f bf Hf Hp Hpt Hf' Hl IH]; intros Ha; [exact Ha|]. apply IH. eapply points_abs; eassumption. Qed.
Lemma root_abs cwd path : is_abs cwd = true -> is_abs (root_of cwd path) = true.
Proof. intros Ha. unfold root_of, abs_path. destruct (is_abs (clean path)) eqn:E; [apply clean_abs; exact E|]. rewrite join_place by exact Ha. reflexivity. Qed.

Lemma parse_dir fs orc grow vorc cwd path r : parse fs orc grow vorc cwd path = Ok r ->
  exists bf, fs !! root_of cwd path = Some (Some bf) /\ pr_dir r = f_dir bf /\ pr_env r = f_env bf /\ pr_vars r = f_vars bf /\ pr_silent r = f_silent bf /\ pr_output r = f_output bf.
Proof.
  intros H. apply parse_Ok in H as [H _]. revert H. simpl. destruct (decide _); [discriminate|]. destruct (fs !! _) as [[bf|]|]; try discriminate.
  destruct (include_loop _ _ _ _ _ _ _); [|discriminate]. intros H; injection H as <-. exists bf. auto 10.
Qed.

(** A command of an included task is the command its file has there. *)
Lemma moved_cmd_inv nss it c : moved nss it (RCmd c) -> it = RCmd c.
Proof. inversion 1; reflexivity. Qed.
Lemma item_at_moved nss f m t0 t pa c : placed_names nss f m t0 t -> item_at t pa (RCmd c) -> item_at t0 pa (RCmd c).
Proof.
  intros Hp. pose proof (pn_run _ _ _ _ _ Hp) as Hrun. unfold Run_Spec.item_at. destruct pa as [|i [|j [|]]]; auto.
  - intros H. destruct (Forall2_lookup_r _ _ _ _ _ Hrun H) as (it & Hi & Hm). rewrite Hi. f_equal. eapply moved_cmd_inv. exact Hm.
  - intros (o & items & Hi & Hj). destruct (Forall2_lookup_r _ _ _ _ _ Hrun Hi) as (it & Hi0 & Hm).
    inversion Hm as [| | | |ln lb md lim col s s' o1 o' ps w items0 items' Hall Hs E1 E2]; subst.
    destruct (Forall2_lookup_r _ _ _ _ _ Hall Hj) as (it & Hj0 & Hm'). apply moved_cmd_inv in Hm' as ->. eauto.
Qed.

Lemma first_given_ne l d : first_given l d -> d = [] <-> Forall (fun x => x = []) l.
Proof. induction 1 as [|d l Hd|d l H IH]; [split; auto|split; [contradiction|inversion 1; congruence]|]. rewrite IH. split; [auto|inversion 1; auto]. Qed.

Lemma first_set_given (a : str) (l : list str) (x : str) (b : str) (d : str) :
  nonempty x = first_set (nonempty a :: map nonempty l) -> first_given [x; b] d -> first_given (a :: l ++ [b]) d.
Proof.
  intros Hx Hd.
  assert (Hcase : (x = [] /\ Forall (fun y => y = []) (a :: l)) \/ (x <> [] /\ exists l1 l2, a :: l = l1 ++ x :: l2 /\ Forall (fun y => y = []) l1)).
  { change (nonempty a :: map nonempty l) with (map nonempty (a :: l)) in Hx. clear Hd. revert Hx. generalize (a :: l). clear a l. intros l. induction l as [|y l IH]; simpl.
    - destruct x; [auto|discriminate].
    - destruct y as [|c y]; simpl.
      + intros H. destruct (IH H) as [[-> Hl]|(Hne & l1 & l2 & -> & Hl)]; [left; auto|right; split; [exact Hne|]]. exists ([] :: l1), l2. auto.
      + intros H. right. destruct x; [discriminate|]. simpl in H. injection H as -> ->. split; [discriminate|]. exists [], l. auto. }
  change (a :: l ++ [b]) with ((a :: l) ++ [b]).
  assert (Hskip : forall l1 l2 e, Forall (fun y : str => y = []) l1 -> first_given l2 e -> first_given (l1 ++ l2) e).
  { intros l1 l2 e H. induction H as [|y l1 -> _ IH]; [auto|]. intros H2. apply fg_later. auto. }
  destruct Hcase as [[-> Hl]|(Hne & l1 & l2 & -> & Hl)].
  - apply Hskip; [exact Hl|]. inversion Hd; [contradiction|assumption].
  - rewrite <- app_assoc. apply Hskip; [exact Hl|]. inversion Hd; subst; [|contradiction]. apply fg_here. assumption.
Qed.

Section C17.
  Context (w : world) (Hw : world_ok w) (Hcwd : is_abs (w_cwd w) = true) (dry : bool) (path name : str) (k : config) (tasks : taskmap) (root : str).
  Context (Hl : load w dry path name = Ok (k, tasks, root)).
  Context (bf : schema) (Hbf : w_fs w !! root_of (w_cwd w) path = Some (Some bf)).

  (** Where a command of task [m] of file [f] runs: in the first directory given by
      the command, the task, its file, the files including it in turn, and at last
      the file the run was started with; a relative one counts from [f]. *)
  Theorem C17_directory nss via f m t0 h p x b past : origin (w_fs w) (root_of (w_cwd w) path) nss via f m t0 -> x_task x = qualify nss m ->
    run_of k tasks root h p -> happened h (OStart x b) past ->
    exists c d d' q n, f = q ++ slash :: n /\ slash ∉ n /\ item_at t0 (x_path x) (RCmd c) /\
      first_given (c_dir c :: t_dir t0 :: map f_dir via ++ [f_dir bf]) d /\
      (d = [] /\ d' = [] \/ d <> [] /\ (exists vars t, tasks !! qualify nss m = Some t /\ sees k past t (x_path x) vars /\ interpolate (w_getenv w) vars d = Ok d') /\
         OStat (x_task x) (x_path x) (x_dir x) SDir ∈ past) /\
      x_dir x = spelled (place_from q d').
  Proof.
    intros Hor Hx Hr Hh. pose proof (load_keyed w Hw dry path name k tasks root Hl) as Hk.
    destruct (load_inv _ _ _ _ _ _ _ Hl) as (r & vars0 & Hp & _ & Ek & Et & Eroot).
    destruct (C34_working_directory k tasks root Hk _ _ _ _ _ Hr Hh) as (t & c & vars & d & d' & Ht & Hat & Hsees & Hd & Hcase & Hdir).
    destruct (C14_references_are_namespaced _ _ _ _ _ _ _ _ _ _ _ _ (proj1 Hw) (proj2 Hw) Hp Hor) as (t' & Ht' & Hpn & _).
    destruct (C15_settings_inherited _ _ _ _ _ _ _ _ _ _ _ _ (proj1 Hw) (proj2 Hw) Hp Hor) as (t'' & Ht'' & Hps).
    rewrite Hx, Et in Ht. rewrite Ht in Ht', Ht''. injection Ht' as <-. injection Ht'' as <-.
    pose proof Hor as (bf' & Hleads & _).
    destruct (abs_split f) as (q & n & Ef & Hn & Ha). { eapply leads_abs; [exact Hleads|]. apply root_abs. exact Hcwd. }
    exists c, d, d', q, n. split; [exact Ef|]. split; [exact Hn|]. split; [eapply item_at_moved; eassumption|].
    assert (Hkd : k_dir k = f_dir bf).
    { destruct (parse_dir _ _ _ _ _ _ _ Hp) as (bf1 & Hbf1 & Hd1 & _). rewrite Ek. simpl. congruence. }
    split.
    { rewrite Hkd in Hd. pose proof (ps_dir _ _ _ Hps) as Hdd. inversion Hd as [|d0 l0 Hd0|d0 l0 Hd0]; subst.
      - apply fg_here. assumption.
      - apply fg_later. rewrite <- (map_map f_dir nonempty) in Hdd. eapply first_set_given; eassumption. }
    split.
    { destruct Hcase as [[-> ->]|(Hne & Hi & Hst)]; [left; auto|right]. split; [exact Hne|]. split; [|exact Hst].
      exists vars, t. split; [rewrite Et; exact Ht|]. split; [exact Hsees|]. rewrite Ek in Hi. exact Hi. }
    apply (Hdir q n); [|exact Hn|exact Ha]. rewrite (pn_source _ _ _ _ _ Hpn). exact Ef.
  Qed.

  (** The claim, for every file the run can be started with that has no [dir] of its
      own: with nothing set on the way, the directory of the defining file. *)
  Theorem C17_default_partial nss via f m t0 c h p x b q n : origin (w_fs w) (root_of (w_cwd w) path) nss via f m t0 -> x_task x = qualify nss m ->
    run_of k tasks root h p -> OStart x b ∈ h -> item_at t0 (x_path x) (RCmd c) -> f = q ++ slash :: n -> slash ∉ n ->
    c_dir c = [] -> t_dir t0 = [] -> Forall (fun b => f_dir b = []) via ->
    (* missing: *) f_dir bf = [] ->
    x_dir x = spelled (place_of q).
  Proof.
    intros Hor Hx Hr Hin Hat Ef Hn Hc Ht Hvia Hroot.
    destruct (start_facts k tasks root (load_keyed w Hw dry path name k tasks root Hl) _ _ _ _ Hr Hin) as (past & Hh & _).
    destruct (C17_directory _ _ _ _ _ _ _ _ _ _ Hor Hx Hr Hh) as (c' & d & d' & q' & n' & Ef' & Hn' & Hat' & Hd & Hcase & ->).
    pose proof (item_at_fun _ _ _ _ Hat Hat') as E. injection E as <-.
    assert (Hq : q' = q). { rewrite Ef in Ef'. apply (f_equal upto_last_slash) in Ef'. rewrite !upto_slash in Ef' by assumption. apply app_inv_tail in Ef'. auto. }
    assert (Hnil : d = []).
    { apply (first_given_ne _ _ Hd). constructor; [exact Hc|]. constructor; [exact Ht|]. apply Forall_app. split; [|constructor; auto]. apply Forall_map. exact Hvia. }
    destruct Hcase as [[_ ->]|[Hne _]]; [|contradiction]. subst q'. unfold place_from. simpl. rewrite walk_nil. reflexivity.
  Qed.
End C17.

(** ** Cases *)
Definition in_dir (d : string) (f : schema) : schema :=
  Schema (f_vars f) (f_env f) (f_silent f) (f_output f) (lit d) (f_includes f) (f_tasks f).
Definition tree (d : string) : fsys := fsof
  [("/r/Babfile", in_dir d (file [("x", "lib/Babfile")] [("all", mk_task [lit "x:go"] [ref_to "x:t"])]));
   ("/r/lib/Babfile", file [("y", "../y.yml")] [("go", mk_task [] [cmd "make"]); ("t", with_aliases "tt" [] (mk_task [] []))]);
   ("/r/y.yml", file [] [("z", mk_task [] [cmd "make"])])].
Definition wof (d : string) : world :=
  World (tree d) (lit "/r") fwd go_grow vfwd key_order (fun _ => []) [] (lit "linux") false.
Lemma wof_ok d : world_ok (wof d).
Proof. split; [exact fwd_ok|exact vfwd_ok]. Qed.
Definition start (d name : string) (l : list act) : hist * prog :=
  match load (wof d) false (lit "Babfile") (lit name) with
  | Ok (k, tasks, root) => ran k tasks root l
  | Err _ => ([], Ret None)
  end.
Lemma start_run d name l k tasks root : load (wof d) false (lit "Babfile") (lit name) = Ok (k, tasks, root) -> run_of k tasks root (start d name l).1 (start d name l).2.
Proof. intros H. unfold start. rewrite H. apply ran_run. Qed.
Definition runs_in (d : string) (ev : event) : bool :=
  match ev with OStart x true => bool_decide (x_task x = lit "x:go" /\ x_path x = [0] /\ x_dir x = lit d) | _ => false end.

(** A run of [all] meets the hypotheses; [x:go] runs where its file is. *)
Example C17_C35_met : exists k tasks, load (wof "") false (lit "Babfile") (lit "all") = Ok (k, tasks, lit "all") /\
  has (runs_in "/r/lib") (start "" "all" [Go [] 60 fine]).1 = true /\ result (start "" "all" [Go [] 60 fine]).2 = Some None.
Proof.
  destruct (load (wof "") false (lit "Babfile") (lit "all")) as [[[k tasks] root]|e] eqn:E; [|vm_compute in E; discriminate E].
  exists k, tasks. split; [|vm_compute; auto]. f_equal. f_equal.
  assert (H : match load (wof "") false (lit "Babfile") (lit "all") with Ok (_, root) => root | Err _ => [] end = lit "all") by (vm_compute; reflexivity).
  rewrite E in H. exact H.
Qed.
(** An alias of an included task; a name that is neither task nor alias. *)
Example C35_alias_met : result (start "" "x:tt" [Go [] 60 fine]).2 = Some None /\
  start "" "tt" [Go [] 60 fine] = ([OClaim (lit "tt") [] Fresh], Ret (Some (RNotFound (lit "tt")))).
Proof. vm_compute. auto. Qed.

(** C62, C63: a run that fails because a command fails; [x:y:z] is not part of it. *)
Definition broken : answers := Answers false (Some []) SDir false.
Example C62_C63_met : result (start "" "all" [Go [] 60 broken]).2 = Some (Some (RDep (lit "x:go") (RCmdFailed (lit "x:go") (lit "make")))) /\
  has (fun ev => match ev with OStart x false => bool_decide (x_task x = lit "x:go" /\ x_cmd x = lit "make") | _ => false end) (start "" "all" [Go [] 60 broken]).1 = true /\
  has (fun ev => match ev with OClaim T _ _ => bool_decide (T = lit "x:y:z") | _ => false end) (start "" "all" [Go [] 60 fine]).1 = false.
Proof. vm_compute. auto. Qed.

(** With a [dir] in the root file, [x:go] runs there, counted from [/r/lib]. *)
Theorem C17_refuted : exists w path name k tasks root nss via f m t0 c h p x q n,
  world_ok w /\ is_abs (w_cwd w) = true /\ load w false path name = Ok (k, tasks, root) /\
  origin (w_fs w) (root_of (w_cwd w) path) nss via f m t0 /\ nss <> [] /\ x_task x = qualify nss m /\
  run_of k tasks root h p /\ OStart x true ∈ h /\ item_at t0 (x_path x) (RCmd c) /\ f = q ++ slash :: n /\ slash ∉ n /\
  c_dir c = [] /\ t_dir t0 = [] /\ Forall (fun b => f_dir b = []) via /\
  x_dir x <> spelled (place_of q).
Proof.
  exists (wof "sub"), (lit "Babfile"), (lit "all").
  destruct (load (wof "sub") false (lit "Babfile") (lit "all")) as [[[k tasks] root]|e] eqn:E; [|vm_compute in E; discriminate E].
  pose proof (start_run "sub" "all" [Go [] 60 fine] k tasks root E) as Hrun.
  assert (Hh : has (runs_in "/r/lib/sub") (start "sub" "all" [Go [] 60 fine]).1 = true) by (vm_compute; reflexivity).
  apply has_start in Hh as (x & Hin & Hev). apply bool_decide_eq_true in Hev as (Hx & Hp & Hd).
  set (lib := file [("y", "../y.yml")] [("go", mk_task [] [cmd "make"]); ("t", with_aliases "tt" [] (mk_task [] []))]%string).
  set (top := in_dir "sub" (file [("x", "lib/Babfile")] [("all", mk_task [lit "x:go"] [ref_to "x:t"])]%string)).
  exists k, tasks, root, [lit "x"], [lib], (lit "/r/lib/Babfile"), (lit "go"), (mk_task [] [cmd "make"]), (CmdRun 1 (lit "make") [] None None None [] []).
  exists (start "sub" "all" [Go [] 60 fine]).1, (start "sub" "all" [Go [] 60 fine]).2, x, (lit "/r/lib"), (lit "Babfile").
  split; [apply wof_ok|]. split; [reflexivity|]. split; [reflexivity|].
  split. { exists lib. split; [|vm_compute; reflexivity]. change [lib] with ([] ++ [lib]).
    eapply (leads_step _ _ top _ (lit "lib/Babfile")); [vm_compute; reflexivity|vm_compute; reflexivity|vm_compute; reflexivity|vm_compute; reflexivity|].
    apply leads_here. vm_compute. reflexivity. }
  split; [discriminate|]. split; [exact Hx|]. split; [exact Hrun|]. split; [exact Hin|]. split; [rewrite Hp; reflexivity|].
  split; [reflexivity|]. split; [apply (bool_decide_eq_false_1 (slash ∈ lit "Babfile")); vm_compute; reflexivity|].
  split; [reflexivity|]. split; [reflexivity|]. split; [constructor; [reflexivity|constructor]|]. rewrite Hd. vm_compute. discriminate.
Qed.

Print Assumptions C17_directory.
Print Assumptions C17_default_partial.
Print Assumptions C17_refuted.
Print Assumptions C35_known_name_never_unknown.
Print Assumptions C35_unknown_name_runs_nothing.
Print Assumptions C62_failure_has_a_cause.
Print Assumptions C63_only_what_was_asked_for.
Print Assumptions C63_only_claimed.
