(** A run is also a run of a Babfile with higher limits. *)
From Verif Require Import Base Types_Model Path_Model Interp_Model Cond_Model Run_Model Label_Model Sim_Proof Limit_Spec.

Section Limit.
  Context (keep : Prop).
  Definition looser (n l1 l2 : nat) : Prop := (l2 = 0 \/ (l1 <> 0 /\ l1 <= l2) \/ n <= l2) /\ (keep -> l2 = 0 -> l1 = 0).
  Lemma raised_looser n z z' : raised n z z' -> (keep -> (0 < z)%Z -> (0 < z')%Z) -> looser n (Z.to_nat z) (Z.to_nat z').
  Proof. unfold raised, looser. intros H Hk. split; [lia|]. intros K E. specialize (Hk K). lia. Qed.
  Lemma looser_same n l : looser n l l.
  Proof. split; [destruct l; [left; reflexivity|right; left; lia]|auto]. Qed.

  Definition rescope (s : scope) (x : proc_info) : proc_info :=
    Proc (x_task x) (x_path x) s (x_cmd x) (x_environ x) (x_dir x) (x_show x) (x_stdin x) (x_ctx x) (x_out x).

  Inductive wide : prog -> prog -> Prop :=
  | w_ret r : wide (Ret r) (Ret r)
  | w_vis e q1 q2 : (forall r, wide (q1 r) (q2 r)) -> wide (Vis e q1) (Vis e q2)
  | w_claim n s1 s2 (q1 q2 : status -> prog) : (forall r, wide (q1 r) (q2 r)) -> wide (Vis (EClaim n s1) q1) (Vis (EClaim n s2) q2)
  | w_start x s (q1 q2 : bool -> prog) : (forall r, wide (q1 r) (q2 r)) -> wide (Vis (EStart x) q1) (Vis (EStart (rescope s x)) q2)
  | w_fork t pa l1 l2 c chs1 chs2 log q1 q2 : looser (length chs1) l1 l2 -> chs1.*1 = chs2.*1 ->
      (forall j s1 s2 p1 p2, chs1 !! j = Some (s1, p1) -> chs2 !! j = Some (s2, p2) -> wide p1 p2) ->
      (forall l, wide (q1 l) (q2 l)) -> wide (Fork t pa l1 c chs1 log q1) (Fork t pa l2 c chs2 log q2).

  Lemma wide_ret r p : wide (Ret r) p -> p = Ret r.
  Proof. intros H. inversion H. reflexivity. Qed.
  Lemma wide_update (chs1 chs2 : list (cstat * prog)) j s p1 p2 : chs1.*1 = chs2.*1 ->
    (forall i s1 s2 q1 q2, chs1 !! i = Some (s1, q1) -> chs2 !! i = Some (s2, q2) -> wide q1 q2) -> wide p1 p2 ->
    (<[j := (s, p1)]> chs1).*1 = (<[j := (s, p2)]> chs2).*1 /\
    (forall i s1 s2 q1 q2, <[j := (s, p1)]> chs1 !! i = Some (s1, q1) -> <[j := (s, p2)]> chs2 !! i = Some (s2, q2) -> wide q1 q2).
  Proof.
    intros Hs Hsim Hp. split; [rewrite !fst_insert, Hs; reflexivity|].
    intros i s1 s2 q1 q2 H1 H2. apply list_lookup_insert_Some in H1. apply list_lookup_insert_Some in H2.
    destruct H1 as [(Hi & H1 & _)|(Hne & H1)]; destruct H2 as [(Hi' & H2 & _)|(Hne' & H2)].
    - injection H1 as <- <-. injection H2 as <- <-. exact Hp.
    - contradiction (Hne' Hi).
    - contradiction (Hne Hi').
    - eapply Hsim; eassumption.
  Qed.

  Lemma list_filter_length_lt_at {A} (P : A -> Prop) `{!forall x, Decision (P x)} (l : list A) j x : l !! j = Some x -> ~ P x -> length (filter P l) < length l.
  Proof.
    revert j. induction l as [|y l IH]; intros [|j] Hj Hn; cbn in Hj; try discriminate Hj.
    - injection Hj as ->. rewrite filter_cons_False by exact Hn. cbn. pose proof (filter_length P l). lia.
    - specialize (IH j Hj Hn). rewrite filter_cons. destruct (decide _); cbn; lia.
  Qed.
  Lemma active_room (chs : list (cstat * prog)) j p : chs !! j = Some (Waiting, p) -> active chs < length chs.
  Proof.
    intros H. unfold active. apply (list_filter_length_lt_at _ _ j (Waiting, p)); [exact H|]. intros [E|E]; discriminate E.
  Qed.
  Lemma wide_step p1 p2 ev p1' : wide p1 p2 -> pstep p1 ev p1' -> ((exists T pa j c, ev = OGiveUp T pa j c) -> keep) ->
    exists ev' p2', pstep p2 ev' p2' /\ bare ev' = bare ev /\ wide p1' p2'.
  Proof.
    intros H. revert ev p1'.
    induction H as [r|e q1 q2 Hq IH|n s1 s2 q1 q2 Hq IH|x s q1 q2 Hq IH|t pa l1 l2 c chs1 chs2 log q1 q2 [Hl Hl0] Hst Hch IH Hq IHq]; intros ev p1' Hstep Hg.
    - inversion Hstep.
    - apply vis_step in Hstep as (r & -> & ->). exists (obs e r), (q2 r). split; [constructor|]. split; [reflexivity|apply Hq].
    - apply vis_step in Hstep as (r & -> & ->). exists (obs (EClaim n s2) r), (q2 r). split; [constructor|]. split; [reflexivity|apply Hq].
    - apply vis_step in Hstep as (r & -> & ->). exists (obs (EStart (rescope s x)) r), (q2 r). split; [constructor|]. split; [reflexivity|apply Hq].
    - assert (Hl' : forall j x, looser (length (<[j := x]> chs1)) l1 l2) by (intros; rewrite insert_length; split; assumption). inversion Hstep; subst.
      + match goal with Hj : chs1 !! ?j = Some (Running, ?p), Hs : pstep ?p ev ?p' |- _ =>
          destruct (same_status chs1 chs2 j _ _ Hst Hj) as (p2 & Hj2);
          destruct (IH j _ _ p p2 Hj Hj2 ev p' Hs Hg) as (ev' & p2' & Hs2 & Hb & Hw);
          destruct (wide_update chs1 chs2 j Running p' p2' Hst Hch Hw) as [Hst' Hch'];
          exists ev', (Fork t pa l2 c (<[j := (Running, p2')]> chs2) log q2);
          split; [eapply ps_child; eassumption|split; [exact Hb|apply w_fork; [apply Hl'|assumption..]]] end.
      + match goal with Hj : chs1 !! ?j = Some (Waiting, ?p), Hlim : l1 = 0 \/ _ |- _ =>
          destruct (same_status chs1 chs2 j _ _ Hst Hj) as (p2 & Hj2);
          destruct (wide_update chs1 chs2 j Running p p2 Hst Hch (Hch j _ _ _ _ Hj Hj2)) as [Hst' Hch'];
          exists (OSlot t pa j), (Fork t pa l2 c (<[j := (Running, p2)]> chs2) log q2);
          split; [apply ps_slot; [exact Hj2|rewrite <- (same_active chs1 chs2 Hst); pose proof (active_room _ _ _ Hj); lia]|split; [reflexivity|apply w_fork; [apply Hl'|assumption..]]] end.
      + match goal with Hj : chs1 !! ?j = Some (Waiting, ?p), Hlim : l1 <> 0 |- _ =>
          destruct (same_status chs1 chs2 j _ _ Hst Hj) as (p2 & Hj2);
          destruct (wide_update chs1 chs2 j Skipped p p2 Hst Hch (Hch j _ _ _ _ Hj Hj2)) as [Hst' Hch'];
          exists (OGiveUp t pa j c), (Fork t pa l2 c (<[j := (Skipped, p2)]> chs2) log q2);
          assert (keep) by (apply Hg; eauto);
          split; [apply ps_giveup; [exact Hj2|intros E; exact (Hlim (Hl0 ltac:(assumption) E))]|split; [reflexivity|apply w_fork; [apply Hl'|assumption..]]] end.
      + match goal with Hj : chs1 !! ?j = Some (Running, Ret ?r) |- _ =>
          destruct (same_status chs1 chs2 j _ _ Hst Hj) as (p2 & Hj2);
          pose proof (wide_ret _ _ (Hch j _ _ _ _ Hj Hj2)) as ->;
          destruct (wide_update chs1 chs2 j Reported (Ret r) (Ret r) Hst Hch (w_ret r)) as [Hst' Hch'];
          exists (OReturn t pa j r), (Fork t pa l2 c (<[j := (Reported, Ret r)]> chs2) (log ++ [(j, r)]) q2);
          split; [apply ps_return; exact Hj2|split; [reflexivity|apply w_fork; [apply Hl'|assumption..]]] end.
      + match goal with Hj : chs1 !! ?j = Some (Reported, ?p) |- _ =>
          destruct (same_status chs1 chs2 j _ _ Hst Hj) as (p2 & Hj2);
          destruct (wide_update chs1 chs2 j Released p p2 Hst Hch (Hch j _ _ _ _ Hj Hj2)) as [Hst' Hch'];
          exists (OFree t pa j), (Fork t pa l2 c (<[j := (Released, p2)]> chs2) log q2);
          split; [apply ps_free; exact Hj2|split; [reflexivity|apply w_fork; [apply Hl'|assumption..]]] end.
      + exists (OJoin t pa), (q2 log). split; [apply ps_join; eapply same_finished; eassumption|]. split; [reflexivity|apply Hq].
  Qed.

  (** The shared state does not depend on the ghosts. *)
  Lemma status_bare h n : status_of (map bare h) n = status_of h n.
  Proof. induction h as [|ev h IH]; [reflexivity|]. destruct ev; cbn; rewrite ?IH; reflexivity. Qed.
  Lemma allocs_bare h : allocs (map bare h) = allocs h.
  Proof. induction h as [|ev h IH]; [reflexivity|]. destruct ev; cbn; rewrite ?IH; reflexivity. Qed.
  Lemma contexts_bare h : contexts (map bare h) = contexts h.
  Proof. induction h as [|ev h IH]; [reflexivity|]. destruct ev; cbn; rewrite ?IH; reflexivity. Qed.
  Lemma heap_bare g h l : heap_of g (map bare h) l = heap_of g h l.
  Proof. induction h as [|ev h IH]; [reflexivity|]. destruct ev; cbn; rewrite ?IH; reflexivity. Qed.
  Lemma cancelled_bare h c : cancelledb (map bare h) c = cancelledb h c.
  Proof. induction h as [|ev h IH]; [reflexivity|]. destruct ev; cbn; rewrite ?IH; reflexivity. Qed.
  Lemma allowed_bare g h ev : allowed g (map bare h) (bare ev) <-> allowed g h ev.
  Proof.
    destruct ev; cbn; rewrite ?status_bare, ?allocs_bare, ?contexts_bare, ?heap_bare, ?cancelled_bare; try reflexivity.
    split; intros H n; specialize (H n); rewrite status_bare in *; exact H.
  Qed.

  Lemma wide_run g p1 p2 h p1' : wide p1 p2 -> rtc (cstep g) ([], p1) (h, p1') -> ((exists T pa j c, OGiveUp T pa j c ∈ h) -> keep) ->
    exists h' p2', rtc (cstep g) ([], p2) (h', p2') /\ map bare h' = map bare h /\ wide p1' p2'.
  Proof.
    intros H0 Hrun.
    enough (G : forall s, rtc (cstep g) ([], p1) s -> ((exists T pa j c, OGiveUp T pa j c ∈ s.1) -> keep) ->
              exists h' p2', rtc (cstep g) ([], p2) (h', p2') /\ map bare h' = map bare s.1 /\ wide s.2 p2') by exact (G _ Hrun).
    clear h p1' Hrun.
    apply (rtc_ind_r (fun s => ((exists T pa j c, OGiveUp T pa j c ∈ s.1) -> keep) -> exists h' p2', rtc (cstep g) ([], p2) (h', p2') /\ map bare h' = map bare s.1 /\ wide s.2 p2')).
    - intros _. exists [], p2. split; [reflexivity|]. split; [reflexivity|exact H0].
    - intros [h p] [h1 p1'] Hrun Hstep IH Hf. cbn in IH, Hf |- *. inversion Hstep; subst.
      + destruct IH as (h2 & p2' & Hrun2 & Hm & Hs2). { intros (T & pa & j & c & Hin). apply Hf. exists T, pa, j, c. right. exact Hin. }
        match goal with Hp : pstep p _ _, Ha : allowed _ _ _ |- _ =>
          destruct (wide_step p p2' _ _ Hs2 Hp) as (ev' & p3 & Hp3 & Hb & Hw); [intros (T & pa & j & c & ->); apply Hf; exists T, pa, j, c; left|];
          exists (ev' :: h2), p3; split; [eapply rtc_r; [exact Hrun2|]; apply cs_prog; [exact Hp3|apply allowed_bare; rewrite Hb, Hm; apply allowed_bare; exact Ha]|] end.
        split; [cbn; rewrite Hb, Hm; reflexivity|exact Hw].
      + destruct IH as (h2 & p2' & Hrun2 & Hm & Hs2). { intros (T & pa & j & c & Hin). apply Hf. exists T, pa, j, c. right. exact Hin. }
        eexists (OCancel _ :: h2), p2'. split; [eapply rtc_r; [exact Hrun2|apply cs_cancel]|]. split; [cbn; rewrite Hm; reflexivity|exact Hs2].
  Qed.

  (** ** The runner *)
  Lemma wide_bind p1 p2 f1 f2 : wide p1 p2 -> (forall r, wide (f1 r) (f2 r)) -> wide (bind p1 f1) (bind p2 f2).
  Proof. intros H Hf. induction H; cbn; [apply Hf|apply w_vis|apply w_claim|apply w_start|apply w_fork]; assumption. Qed.
  Lemma wide_and_then p1 p2 w q1 q2 : wide p1 p2 -> wide q1 q2 -> wide (and_then p1 w q1) (and_then p2 w q2).
  Proof. intros Hp Hq. apply wide_bind; [exact Hp|]. intros [e|]; [apply w_ret|exact Hq]. Qed.

  Definition at_scope (s : scope) (a : args) : args := Args (a_main a) (a_silent a) (a_output a) (a_out a) (a_nocolor a) (a_tui a) (a_ctx a) s.

  Context (k : config) (tasks1 tasks2 : taskmap) (Htasks : raised_tasks keep tasks1 tasks2).

  Lemma wide_env ln vars env f1 f2 : (forall m, wide (f1 m) (f2 m)) -> wide (interpolate_env_then k ln vars env f1) (interpolate_env_then k ln vars env f2).
  Proof. intros Hf. unfold interpolate_env_then. destruct (decide _); [apply Hf|]. apply w_vis. intros order. destruct (interpolate_env _ _ _ _); [apply Hf|apply w_ret]. Qed.
  Lemma wide_dir t items pa ln d vars f1 f2 : (forall m, wide (f1 m) (f2 m)) ->
    wide (resolve_dir_then k t pa ln d vars f1) (resolve_dir_then k (with_run items t) pa ln d vars f2).
  Proof.
    intros Hf. unfold resolve_dir_then. cbn [t_source t_dir t_name with_run]. cbv zeta. destruct (match match d with [] => _ | _ => _ end with [] => _ | _ => _ end); [apply Hf|].
    destruct (interpolate _ _ _); [|apply w_ret]. apply w_vis. intros []; try apply w_ret. apply Hf.
  Qed.
  Lemma wide_command c t items pa l env a s : wide (execute_command k c t pa l env a) (execute_command k c (with_run items t) pa l env (at_scope s a)).
  Proof.
    unfold execute_command. cbn [t_name t_output t_silent with_run a_output a_silent a_out a_ctx a_nocolor a_scope at_scope]. destruct (trim_space _); [apply w_ret|]. apply w_vis. intros vars.
    destruct (interpolate _ _ _); [|apply w_ret]. apply wide_env. intros cmdenv. apply wide_dir. intros d.
    destruct (k_dry k); [apply w_vis; intros; apply w_ret|]. cbv zeta.
    match goal with |- wide (if _ then ?p else _) (if _ then ?q else _) => assert (Hgo : wide p q) end.
    { apply w_vis. intros order. match goal with |- wide (Vis (EStart ?x) _) _ => apply (w_start x s) end.
      intros [|]; [|apply w_ret]. apply w_vis. intros [|]; apply w_ret. }
    destruct (is_silent _); [exact Hgo|]. apply w_vis. intros _. exact Hgo.
  Qed.

  Section Calls.
    Context (rt1 rt2 : str -> args -> prog) (Hrt : forall n a s, wide (rt1 n a) (rt2 n (at_scope s a))).
    Lemma wide_call n a a' : a' = at_scope (a_scope a') a -> wide (rt1 n a) (rt2 n a').
    Proof. intros ->. apply Hrt. Qed.

    Lemma wide_run_item it t items pa l env a s : wide (execute_run_item k rt1 it t pa l env a) (execute_run_item k rt2 it (with_run items t) pa l env (at_scope s a)).
    Proof.
      destruct it; cbn [execute_run_item]; try apply w_ret.
      - apply wide_command.
      - cbn [t_name with_run]. destruct (k_dry k); [apply w_vis; intros; apply w_ret|]. apply wide_call. reflexivity.
      - cbn [t_name with_run a_out at_scope]. apply w_vis. intros vars. destruct (interpolate _ _ _); [|apply w_ret]. destruct (k_dry k); apply w_vis; intros; apply w_ret.
    Qed.
    Lemma wide_pre_deps deps seen a s q1 q2 : (forall x, wide (q1 x) (q2 x)) -> wide (pre_deps rt1 deps seen a q1) (pre_deps rt2 deps seen (at_scope s a) q2).
    Proof.
      intros Hq. revert seen. induction deps as [|d r IH]; intros seen; cbn [pre_deps]; [apply Hq|]. destruct (decide _); [apply IH|].
      apply w_vis. intros [| |]; [apply wide_and_then; [apply Hrt|apply IH]..|apply IH].
    Qed.
    Lemma wide_pre_resolve items seen a s : wide (pre_resolve tasks1 rt1 items seen a) (pre_resolve tasks2 rt2 items seen (at_scope s a)).
    Proof.
      revert seen. induction items as [|it r IH]; intros seen; cbn [pre_resolve]; [apply w_ret|]. destruct it; try apply IH.
      pose proof (Htasks (r_task t)) as Ht. destruct (tasks1 !! r_task t) as [t1|], (tasks2 !! r_task t) as [t2|]; try contradiction Ht; [|apply w_ret].
      destruct Ht as (is & -> & _). cbn [t_deps with_run]. apply wide_pre_deps. exact IH.
    Qed.
    Lemma wide_fork o z items t is pa l env c sub1 sub2 q1 q2 : looser (length items) (Z.to_nat (q_limit o)) (Z.to_nat z) ->
      (forall j, exists s, sub2 j = at_scope s (sub1 j)) -> (forall log, wide (q1 log) (q2 log)) ->
      wide (fork k rt1 o items t pa l env c sub1 q1) (fork k rt2 (with_limit z o) items (with_run is t) pa l env c sub2 q2).
    Proof.
      intros Hl Hs Hq. unfold fork. cbn [t_name with_run q_limit with_limit]. apply w_fork; [rewrite imap_length; exact Hl| | |exact Hq].
      - apply list_eq. intros j. rewrite !list_lookup_fmap, !list_lookup_imap. destruct (items !! j); reflexivity.
      - intros j s1 s2 p1 p2 H1 H2. rewrite list_lookup_imap in H1, H2. destruct (items !! j) as [it|]; [|discriminate H1].
        cbn in H1, H2. injection H1 as <- <-. injection H2 as <- <-. destruct (Hs j) as (s & ->). apply wide_run_item.
    Qed.
    Lemma wide_parallel o z items t is pa l env a s : looser (length items) (Z.to_nat (q_limit o)) (Z.to_nat z) ->
      wide (execute_parallel k tasks1 rt1 o items t pa l env a) (execute_parallel k tasks2 rt2 (with_limit z o) items (with_run is t) pa l env (at_scope s a)).
    Proof.
      intros Hl. unfold execute_parallel. cbv zeta. apply wide_and_then; [match goal with |- wide (pre_resolve _ _ _ _ ?a1) (pre_resolve _ _ _ _ ?a2) => change a2 with (at_scope (a_scope a2) a1) end; apply wide_pre_resolve|]. cbn [q_mode with_limit t_name with_run].
      destruct (k_dry k); [apply w_vis; intros; apply w_ret|].
      change (a_piped (at_scope s a)) with (a_piped a). change (a_in_tui (at_scope s a)) with (a_in_tui a). destruct (is_tui_mode _ && _ && _).
      - unfold execute_tui. cbn [a_tui a_ctx at_scope]. destruct (a_tui a).
        + apply wide_fork; [exact Hl|intros j; eexists; reflexivity|]. intros log. cbn [t_silent with_run a_silent at_scope t_name].
          cbn [q_silent with_limit]. destruct (is_silent _); [apply w_ret|]. apply w_vis. intros; apply w_ret.
        + apply w_vis. intros i. apply w_vis. intros [|]; [|apply w_ret]. apply wide_fork; [exact Hl|intros j; eexists; reflexivity|]. intros log.
          cbn [t_silent with_run a_silent at_scope t_name q_silent with_limit]. destruct (is_silent _); [apply w_ret|]. apply w_vis. intros; apply w_ret.
      - unfold execute_interleaved. apply wide_fork; [exact Hl|intros j; eexists; reflexivity|]. intros log. apply w_ret.
    Qed.
    Lemma wide_item it it' t is i l env a s : raised_item keep it it' ->
      wide (execute_item k tasks1 rt1 it t i l env a) (execute_item k tasks2 rt2 it' (with_run is t) i l env (at_scope s a)).
    Proof.
      intros H. assert (Hb : forall o items z, looser (length items) (Z.to_nat (q_limit o)) (Z.to_nat z) ->
        wide (execute_item k tasks1 rt1 (RPar o items) t i l env a) (execute_item k tasks2 rt2 (RPar (with_limit z o) items) (with_run is t) i l env (at_scope s a))).
      { intros o items z Hl. unfold execute_item. cbn [t_name with_run q_mode with_limit]. destruct (k_dry k); [apply w_vis; intros; apply w_ret|].
        apply w_vis. intros vars. apply w_vis. intros l'. apply wide_parallel. exact Hl. }
      destruct H as [it|o items z Hr Hk]; [|apply Hb, raised_looser; assumption].
      destruct it; unfold execute_item; try apply wide_run_item.
      - cbn [t_name with_run]. apply w_vis. intros vars. destruct (interpolate_prompt _ _ _); [|apply w_ret]. destruct (k_dry k); [apply w_vis; intros; apply w_ret|].
        apply w_vis. intros [v|]; [|apply w_ret]. apply w_vis. intros; apply w_ret.
      - specialize (Hb o items (q_limit o) (looser_same _ _)). destruct o. exact Hb.
    Qed.
    Lemma raised_facts it it' : raised_item keep it it' -> item_when it' = item_when it /\ item_platforms it' = item_platforms it /\ item_line it' = item_line it.
    Proof. intros []; repeat split. Qed.
    Lemma wide_items items items' t is i x y l env a s : Forall2 (raised_item keep) items items' ->
      wide (execute_items k tasks1 rt1 items t i x y l env a) (execute_items k tasks2 rt2 items' (with_run is t) i x y l env (at_scope s a)).
    Proof.
      intros H. revert i x y. induction H as [|it it' r r' Hit Hr IH]; intros i x y; cbn [execute_items t_name with_run a_ctx at_scope]; [destruct x, y; apply w_ret|].
      destruct (raised_facts _ _ Hit) as (-> & -> & ->). apply w_vis. intros [|]; [apply w_ret|]. destruct (negb _); [apply w_vis; intros; apply IH|]. cbv zeta.
      match goal with |- wide (match item_when it with [] => ?p | _ => _ end) (match _ with [] => ?q | _ => _ end) => assert (Hgo : wide p q) end.
      { apply wide_bind; [apply wide_item; exact Hit|]. intros r0. apply w_vis. intros _. destruct r0; [apply w_ret|apply IH]. }
      destruct (item_when it); [exact Hgo|]. apply w_vis. intros vars. destruct (evaluate _ _ _) as [[|]|]; [exact Hgo|apply w_vis; intros; apply IH|apply w_ret].
    Qed.
    Lemma wide_task t t' a s : raised_task keep t t' -> wide (execute_task k tasks1 rt1 t a) (execute_task k tasks2 rt2 t' (at_scope s a)).
    Proof.
      intros (is & -> & H). unfold execute_task. cbn [t_vars t_name t_line t_env with_run t_run]. cbv zeta. destruct (t_vars t).
      - apply w_vis. intros order. apply w_vis. intros gl. destruct (resolve_vars _ _ _ _); [|apply w_ret]. apply w_vis. intros l. apply wide_env. intros env. apply wide_items. exact H.
      - apply w_vis. intros vars. apply wide_env. intros env. apply wide_items. exact H.
    Qed.
    Lemma wide_deps n deps a s q1 q2 : wide q1 q2 -> wide (run_deps rt1 n deps a q1) (run_deps rt2 n deps (at_scope s a) q2).
    Proof. intros Hq. induction deps as [|d r IH]; cbn [run_deps]; [exact Hq|]. apply wide_and_then; [apply wide_call; reflexivity|exact IH]. Qed.
  End Calls.

  Lemma wide_chain fuel current st chain last seen : build_chain fuel current tasks1 st chain last seen = build_chain fuel current tasks2 st chain last seen.
  Proof.
    revert chain last seen. induction fuel as [|n IH]; intros chain last seen; cbn [build_chain]; [reflexivity|].
    destruct (decide (last ∈ seen)); [reflexivity|]. pose proof (Htasks last) as Ht.
    destruct (tasks1 !! last) as [t1|], (tasks2 !! last) as [t2|]; try contradiction Ht; [|reflexivity].
    destruct Ht as (is & -> & _). cbn [t_deps with_run]. destruct (filter _ (t_deps t1)) as [|d r]; [reflexivity|].
    destruct (decide (d = current)); [reflexivity|apply IH].
  Qed.
  Lemma wide_size : size tasks1 = size tasks2.
  Proof.
    rewrite <- !size_dom. f_equal. apply set_eq. intros n. rewrite !elem_of_dom. specialize (Htasks n).
    destruct (tasks1 !! n), (tasks2 !! n); try contradiction Htasks; split; intros [? E]; try discriminate E; eauto.
  Qed.
  Lemma wide_run_task fuel : forall n a s, wide (run_task k tasks1 fuel n a) (run_task k tasks2 fuel n (at_scope s a)).
  Proof.
    induction fuel as [|f IH]; intros n a s; cbn [run_task]; [apply w_ret|]. apply w_claim. intros [| |]; [| |apply w_ret].
    - pose proof (Htasks n) as Ht. destruct (tasks1 !! n) as [t1|], (tasks2 !! n) as [t2|]; try contradiction Ht; [|apply w_ret].
      destruct Ht as (is & -> & H). cbn [t_when t_line t_deps t_silent t_run with_run a_main a_out a_silent at_scope]. cbv zeta.
      match goal with |- wide (match t_when t1 with [] => ?p | _ => _ end) (match _ with [] => ?q | _ => _ end) => assert (Hb : wide p q) end.
      { match goal with |- wide (if _ then Vis _ (fun _ => ?p) else _) (if _ then Vis _ (fun _ => ?q) else _) => assert (Hrest : wide p q) end.
        { apply wide_deps; [exact IH|]. assert (Hf : wide (Vis (EDone n) (fun _ => Ret None)) (Vis (EDone n) (fun _ => Ret None))) by (apply w_vis; intros; apply w_ret).
          assert (Ht : wide (and_then (execute_task k tasks1 (run_task k tasks1 f) t1 a) id (Vis (EDone n) (fun _ => Ret None))) (and_then (execute_task k tasks2 (run_task k tasks2 f) (with_run is t1) (at_scope s a)) id (Vis (EDone n) (fun _ => Ret None)))).
          { apply wide_and_then; [|exact Hf]. apply wide_task; [exact IH|]. eexists. split; [reflexivity|exact H]. }
          pose proof (Forall2_length _ _ _ H) as HL. destruct (t_run t1), is; try discriminate HL; [exact Hf|exact Ht]. }
        destruct (negb _ && _); [apply w_vis; intros _|]; exact Hrest. }
      destruct (t_when t1); [exact Hb|]. apply w_vis. intros gl. destruct (evaluate _ _ _) as [[|]|]; [exact Hb| |apply w_ret].
      apply w_vis. intros _. apply w_vis. intros _. apply w_ret.
    - apply w_vis. intros m. unfold build_chain_slice. rewrite <- wide_size, <- wide_chain. apply w_ret.
  Qed.
End Limit.
