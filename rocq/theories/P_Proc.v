(** C77: cancelling ends the commands. C78: hiding output changes nothing else.
    C79: commands can ask at the terminal. *)
From Verif Require Import Base Proc_Model Proc_Proof.

(** The states of one command. *)
Definition reached (m : table) (lead : nat) (sk : sink) (front : nat) (l : list act) (s : world) : Prop :=
  begins m lead /\ wsteps l (started m lead sk front) s.

Lemma reached_good m lead sk fr l s : reached m lead sk fr l s -> good s /\ w_lead s = lead /\ w_sink s = sk.
Proof.
  intros [Hb Hl]. split; [|exact (steps_lead _ _ _ Hl)]. eapply (steps_inv good good_step); [exact Hl|]. apply good_start. exact Hb.
Qed.
Lemma reached_tells m lead sk fr l s : reached m lead sk fr l s -> tells l s.
Proof.
  intros [Hb Hl]. revert s Hl. induction l as [|a l IH] using rev_ind; intros s Hl.
  - inversion Hl; subst. unfold tells, started. cbn. split; [intros _; apply not_elem_of_nil|]. split; [discriminate|]. split; [intros H; inversion H|]. split; [discriminate|].
    split; [discriminate|]. split; [apply not_elem_of_nil|]. intros p code Hp. rewrite lookup_insert in Hp. injection Hp as <-. discriminate.
  - apply wsteps_app_inv in Hl as (s1 & H1 & H2). inversion H2 as [|? ? ? s2 ? H3 H4]; subst. inversion H4; subst. eapply tells_step; [|exact H3|apply IH, H1].
    exact (proj1 (reached_good _ _ _ _ _ _ (conj Hb H1))).
Qed.
Lemma reached_tame m lead sk fr l s : reached m lead sk fr l s -> stays l -> tame s.
Proof. intros [Hb Hl] Hs. eapply tame_steps; [exact Hl|exact Hs|]. apply tame_start. exact Hb. Qed.

(** ** C77 *)

(** When the context is done bab kills, and then nothing of what the command started is
    alive any more, if none of it has gone to another group or user. *)
Theorem C77_ends m lead sk fr l s s' l' s'' :
  reached m lead sk fr l s -> stays l -> wstep AKill s s' -> wsteps l' s' s'' ->
  forall i p, w_procs s'' !! i = Some p -> p_exit p = None -> p_mine p = false.
Proof.
  intros Hr Hst Hk Hl' i p Hi Hx. assert (G : gone s') by (eapply kill_gone; [eapply reached_tame; eauto|exact Hk]).
  pose proof (steps_inv gone gone_step _ _ _ Hl' G) as G'. apply (G' i p). split; assumption.
Qed.
Print Assumptions C77_ends.

(** bab kills as soon as the context is done, if it still waits for the command's first
    process; and then, whatever else happens, its waiting ends with at most three more
    steps of its own, which are never blocked. *)
Theorem C77_returns m lead sk fr l s :
  reached m lead sk fr l s -> stays l -> w_self s <> Dead -> w_cancelled s = true -> w_watch s = Watching ->
  (exists s', wstep AKill s s') /\
  forall s', wstep AKill s s' -> forall l' s'', wsteps l' s' s'' ->
    turns l' <= 3 /\ (w_self s'' <> Dead -> is_over s'' \/ exists a s3, waits a /\ wstep a s'' s3).
Proof.
  intros Hr Hst Hd Hc Hw. split.
  - destruct s as [m' l0 s0 ph w c sf fr0]. cbn in *. subst. eexists. constructor. exact Hd.
  - intros s' Hk l' s'' Hl'. split.
    + pose proof (steps_turns _ _ _ Hl') as E. unfold left_to_do in E. destruct (w_phase s'), (w_phase s''); lia.
    + intros Hd'. apply gone_wait; [| |exact Hd'].
      * eapply (steps_inv good good_step); [exact Hl'|]. eapply good_step; [exact Hk|]. exact (proj1 (reached_good _ _ _ _ _ _ Hr)).
      * eapply (steps_inv gone gone_step); [exact Hl'|]. eapply kill_gone; [eapply reached_tame; eauto|exact Hk].
Qed.
Print Assumptions C77_returns.

(** While bab waits for the first process it does watch the context; the kill only touches
    what the command started. *)
Theorem C77_others m lead sk fr l s s' :
  reached m lead sk fr l s -> w_phase s = Waiting ->
  (AKill ∈ l \/ w_watch s = Watching) /\
  (wstep AKill s s' -> forall i p, p_mine p = false -> (w_procs s' !! i = Some p <-> w_procs s !! i = Some p)).
Proof.
  intros Hr Hp. split.
  - pose proof (reached_tells _ _ _ _ _ _ Hr) as (T1 & T2 & _ & _ & T5). rewrite Hp in T5. destruct T5 as (T5 & _). destruct (w_watch s); [right; reflexivity|left; auto|contradiction].
  - intros Hk i p Hm. destruct (reached_good _ _ _ _ _ _ Hr) as (G & El & _). pose proof (g_group s G Hp) as Hg. inversion Hk; subst. cbn in *. split; intros H1.
    + apply kill_inv in H1 as (p0 & H0 & E1 & E2 & _ & _ & _ & [->|(-> & E & _)] & _); [exact H0|]. rewrite (Hg _ _ H0 E) in E2. congruence.
    + apply kill_other; [exact H1|]. intros E. rewrite (Hg _ _ H1 E) in Hm. discriminate.
Qed.
Print Assumptions C77_others.

(** What a command gives: success if its first process ended with status 0 and bab has not
    killed; the status only if it is that of the first process and there was no
    cancellation; cancelled only if bab was told so. *)
Theorem C77_result m lead sk fr l s r :
  reached m lead sk fr l s -> w_phase s = Over r ->
  exists l1 l2 code, l = l1 ++ AReap :: l2 /\ AReap ∉ l1 /\ (AExit lead code ∈ l1 \/ AKill ∈ l1 /\ code = 137) /\
    (r = None <-> code = 0 /\ AKill ∉ l) /\ (forall c, r = Some (CExit c) -> c = code /\ c <> 0 /\ AKill ∉ l) /\ (r = Some CCancelled -> ASignal ∈ l \/ AQuit ∈ l).
Proof.
  intros Hr Hp. pose proof (reached_tells _ _ _ _ _ _ Hr) as (_ & _ & _ & _ & T5). rewrite Hp in T5. destruct T5 as (_ & code & (l1 & l2 & E & H1 & H2) & T6 & T7 & T8).
  destruct (reached_good _ _ _ _ _ _ Hr) as (_ & El & _). unfold first_ended in H2. rewrite El in H2. exists l1, l2, code. auto 6.
Qed.
Print Assumptions C77_result.

(** ** Concrete commands *)
(** bab is process 1, the command process 2. *)
Definition only_bab : table := {[ 1 := MkProc 1 false true false false false None ]}.
Lemma only_bab_begins : begins only_bab 2.
Proof.
  split; [split; [reflexivity|]|].
  - intros j p H. unfold only_bab in H; apply lookup_singleton_Some in H as [_ <-]. discriminate.
  - intros i p H. unfold only_bab in H; apply lookup_singleton_Some in H as [_ <-]. auto.
Qed.
Global Instance proc_eq_dec : EqDecision proc.
Proof. solve_decision. Defined.
Ltac same := match goal with |- ?a = ?b => exact (bool_decide_unpack (a = b) I) end.
Ltac look := vm_compute; reflexivity.
Ltac live := split; [split; [look|reflexivity]|reflexivity].
Ltac free := split; [look|]; let j := fresh in let p := fresh in let H := fresh in intros j p H;
  repeat match type of H with
  | <[?i := _]> _ !! j = Some _ => apply lookup_insert_Some in H as [[_ <-]|[_ H]]; [discriminate|]
  | _ => unfold only_bab in H; apply lookup_singleton_Some in H as [_ <-]; discriminate
  end.

Example C77_met :
  exists s, reached only_bab 2 Writer 1 [AFork 2 3; AFork 3 4; ASignal; AKill; AReap; AReceive; AReturn] s /\ w_phase s = Over (Some CCancelled) /\ w_procs s = only_bab.
Proof.
  eexists. split; [split; [exact only_bab_begins|]|].
  - eapply WCons; [eapply (SFork _ _ _ _ _ _ _ _ 2 3); [live|reflexivity|free]|]. eapply WCons; [eapply (SFork _ _ _ _ _ _ _ _ 3 4); [live|reflexivity|free]|].
    eapply WCons; [apply SSignal|]. eapply WCons; [apply SKill; discriminate|]. eapply WCons; [eapply SReap; [discriminate|look|reflexivity]|].
    eapply WCons; [apply SReceive; discriminate|]. eapply WCons; [apply SReturn; [discriminate|]|apply WNil]. intros _ (i & p & [Hi Hx] & Hm & _).
    match type of Hi with ?t !! _ = _ => assert (E : t = only_bab) by same end. rewrite E in Hi. unfold only_bab in Hi; apply lookup_singleton_Some in Hi as [_ <-]. discriminate.
  - split; [reflexivity|]. cbn [w_procs]. same.
Qed.

(** *** What is not so *)
(** A process that made a group of its own survives, and bab is over. *)
Theorem C77_leaver_refuted : exists l s, reached only_bab 2 Screen 1 l s /\ AKill ∈ l /\ is_over s /\ exists i p, alive (w_procs s) i p /\ p_mine p = true.
Proof.
  exists [AFork 2 3; ALeave 3 3; ASignal; AKill; AReap; AReceive; AReturn]. eexists. split; [split; [exact only_bab_begins|]|].
  - eapply WCons; [eapply (SFork _ _ _ _ _ _ _ _ 2 3); [live|reflexivity|free]|]. eapply WCons; [eapply (SLeave _ _ _ _ _ _ _ _ 3); [live|reflexivity|left; reflexivity]|].
    eapply WCons; [apply SSignal|]. eapply WCons; [apply SKill; discriminate|]. eapply WCons; [eapply SReap; [discriminate|look|reflexivity]|].
    eapply WCons; [apply SReceive; discriminate|]. eapply WCons; [apply SReturn; [discriminate|]|apply WNil]. discriminate.
  - split; [set_unfold; tauto|]. split; [eexists; reflexivity|]. exists 3. eexists. split; [split; [look|reflexivity]|reflexivity].
Qed.
Print Assumptions C77_leaver_refuted.

(** While the output of a background process is open, bab neither returns nor kills. *)
Lemma stuck l s s' h p : wsteps l s s' -> (forall code, AExit h code ∉ l) -> (forall o e, AClose h o e ∉ l) -> AKill ∉ l ->
  piped (w_sink s) = true -> ~ is_over s -> alive (w_procs s) h p -> p_mine p = true -> p_out p = true \/ p_err p = true -> ~ is_over s'.
Proof.
  intros Hl. revert p. induction Hl as [|a l s s1 s' Hs _ IH]; [auto|]. intros p He Hc Hk Hp Ho Ha Hm Hop.
  destruct (keeps_step a s s1 h p Hs) as (p1 & Ha1 & Hm1 & Hf & _); [intros ->; apply Hk; left|intros code ->; apply (He code); left|exact Ha|exact Hm|].
  destruct Hf as [F1 F2]; [intros o e ->; apply (Hc o e); left|].
  apply (IH p1); try exact Ha1; try exact Hm1; try (intros; intros H; (apply (He code) || apply (Hc o e) || apply Hk); right; exact H).
  - rewrite (proj2 (step_lead _ _ _ Hs)). exact Hp.
  - intros [r Hr]. destruct Hs; cbn in *; try (apply Ho; eexists; exact Hr); try discriminate. apply (H0 Hp). exists h, p. auto.
  - rewrite F1, F2. exact Hop.
Qed.
Theorem C77_background_refuted : exists l s h,
  reached only_bab 2 Writer 1 l s /\ stays l /\ w_cancelled s = false /\
  forall l' s', wsteps l' s s' -> (forall code, AExit h code ∉ l') -> (forall o e, AClose h o e ∉ l') -> ~ is_over s' /\ AKill ∉ l'.
Proof.
  exists [AFork 2 3; AExit 2 0; AReap; AReceive]. eexists. exists 3. split; [split; [exact only_bab_begins|]|].
  - eapply WCons; [eapply (SFork _ _ _ _ _ _ _ _ 2 3); [live|reflexivity|free]|]. eapply WCons; [eapply (SExit _ _ _ _ _ _ _ _ 2); live|].
    eapply WCons; [eapply SReap; [discriminate|look|reflexivity]|]. eapply WCons; [apply SReceive; discriminate|apply WNil].
  - split; [repeat constructor|]. split; [reflexivity|]. intros l' s' Hl' He Hc.
    assert (K : forall l s s', wsteps l s s' -> w_watch s = Gone -> AKill ∉ l).
    { clear. induction 1 as [|a l s s1 s' Hs _ IH]; [intros _; apply not_elem_of_nil|]. intros Hw H. apply elem_of_cons in H as [<-|H]; [inversion Hs; subst; discriminate|].
      apply (IH); [|exact H]. destruct Hs; cbn in *; congruence. }
    assert (Hk : AKill ∉ l') by (apply (K _ _ _ Hl'); reflexivity). split; [|exact Hk].
    eapply (stuck _ _ _ 3); [exact Hl'|exact He|exact Hc|exact Hk|reflexivity|intros [r [=]]|split; [look|reflexivity]|reflexivity|left; reflexivity].
Qed.
Print Assumptions C77_background_refuted.

(** A kill that comes late can hit a stranger with the same number. *)
Theorem C77_stranger_refuted : exists l s s' i p, reached only_bab 2 Screen 1 l s /\ wstep AKill s s' /\ alive (w_procs s) i p /\ p_mine p = false /\ forall p', ~ alive (w_procs s') i p'.
Proof.
  exists [AExit 2 0; AReap; ASignal; AOther 2]. eexists. eexists. exists 2. eexists. split; [split; [exact only_bab_begins|]|].
  - eapply WCons; [eapply (SExit _ _ _ _ _ _ _ _ 2); live|]. eapply WCons; [eapply SReap; [discriminate|look|reflexivity]|]. eapply WCons; [apply SSignal|].
    eapply WCons; [|apply WNil]. eapply (SOther _ _ _ _ _ _ _ _ 2 (MkProc 2 false true false false false None)); [|reflexivity|reflexivity|left; reflexivity].
    match goal with |- unused ?t 2 => assert (E : t = only_bab) by same end. rewrite E. exact (proj1 only_bab_begins).
  - split; [apply SKill; discriminate|]. split; [split; [look|reflexivity]|]. split; [reflexivity|]. intros p' [H Hx].
    match type of H with ?t = Some _ => let v := eval vm_compute in t in change (v = Some p') in H end. injection H as <-. discriminate.
Qed.
Print Assumptions C77_stranger_refuted.

(** A second signal ends bab, and the command goes on. *)
Theorem C77_second_signal_refuted : exists l s, reached only_bab 2 Screen 1 l s /\ stays l /\ w_cancelled s = true /\
  forall l' s', wsteps l' s s' -> (forall code, AExit 2 code ∉ l') -> exists p, alive (w_procs s') 2 p /\ p_mine p = true.
Proof.
  exists [ASignal; AStopCatching; ASignal]. eexists. split; [split; [exact only_bab_begins|]|].
  - eapply WCons; [apply SSignal|]. eapply WCons; [apply SStop|]. eapply WCons; [apply SDeath|apply WNil].
  - split; [repeat constructor|]. split; [reflexivity|]. intros l' s' Hl' He.
    assert (K : forall l s s', wsteps l s s' -> w_self s = Dead -> (forall code, AExit 2 code ∉ l) -> (exists p, alive (w_procs s) 2 p /\ p_mine p = true) -> exists p, alive (w_procs s') 2 p /\ p_mine p = true).
    { clear. induction 1 as [|a l s s1 s' Hs _ IH]; [auto|]. intros Hd He (p & Ha & Hm). apply IH.
      - destruct Hs; cbn in *; congruence.
      - intros code H. apply (He code). right. exact H.
      - destruct (keeps_step a s s1 2 p Hs) as (p1 & Ha1 & Hm1 & _); [intros ->; inversion Hs; subst; contradiction|intros code ->; apply (He code); left|exact Ha|exact Hm|eauto]. }
    eapply K; [exact Hl'|reflexivity|exact He|]. eexists. split; [split; [look|reflexivity]|reflexivity].
Qed.
Print Assumptions C77_second_signal_refuted.

(** A command that has ended well can be reported as cancelled. *)
Theorem C77_finished_refuted : exists l1 l2 s, reached only_bab 2 Screen 1 (l1 ++ AExit 2 0 :: l2) s /\ ASignal ∉ l1 /\ w_phase s = Over (Some CCancelled).
Proof.
  exists [], [ASignal; AKill; AReap; AReceive; AReturn]. eexists. split; [split; [exact only_bab_begins|]|].
  - eapply WCons; [eapply (SExit _ _ _ _ _ _ _ _ 2); live|]. eapply WCons; [apply SSignal|]. eapply WCons; [apply SKill; discriminate|].
    eapply WCons; [eapply SReap; [discriminate|look|reflexivity]|]. eapply WCons; [apply SReceive; discriminate|]. eapply WCons; [apply SReturn; discriminate|apply WNil].
  - split; [apply not_elem_of_nil|reflexivity].
Qed.
Print Assumptions C77_finished_refuted.

(** ** C78 *)
Definition with_sink (sk : sink) (s : world) : world := World (w_procs s) (w_lead s) sk (w_phase s) (w_watch s) (w_cancelled s) (w_self s) (w_front s).

(** Whatever can happen when the output is hidden or goes to a writer can happen when it is
    shown, with the same result. *)
Theorem C78_hidden_is_shown m lead sk fr l s : reached m lead sk fr l s -> reached m lead Screen fr l (with_sink Screen s).
Proof.
  intros [Hb Hl]. split; [exact Hb|]. change (started m lead Screen fr) with (with_sink Screen (started m lead sk fr)). clear Hb. induction Hl as [|a l s s' s'' Hs _ IH]; [constructor|].
  econstructor; [|exact IH]. destruct Hs; unfold with_sink; cbn; try (econstructor; eauto; fail).
  - apply SReturn; [assumption|discriminate].
Qed.
Print Assumptions C78_hidden_is_shown.

(** A shown command is over when its first process is, at most three steps of bab later. *)
Theorem C78_shown m lead fr l s :
  reached m lead Screen fr l s -> w_self s <> Dead -> (forall p, alive (w_procs s) lead p -> p_mine p = false) ->
  turns l <= 3 /\ (is_over s \/ exists a s', waits a /\ wstep a s s').
Proof.
  intros Hr Hd Hn. destruct (reached_good _ _ _ _ _ _ Hr) as ([G1 _ _] & El & Es). split.
  { destruct Hr as [_ Hl]. pose proof (steps_turns _ _ _ Hl) as E. unfold left_to_do in E. cbn in E. lia. }
  destruct s as [m' l0 s0 ph w c sf fr0]. cbn in *. subst. destruct ph as [|code|e|r].
  - destruct (G1 eq_refl) as (p & Hl & Hm). destruct (p_exit p) as [code|] eqn:Ex; [|rewrite (Hn p) in Hm by (split; assumption); discriminate].
    right. exists AReap. eexists. split; [left; reflexivity|]. econstructor; eauto.
  - right. exists AReceive. eexists. split; [right; left; reflexivity|]. constructor; exact Hd.
  - right. exists AReturn. eexists. split; [right; right; reflexivity|]. constructor; [exact Hd|]. discriminate.
  - left. exists r. reflexivity.
Qed.
Print Assumptions C78_shown.

(** A command whose output is hidden or goes to a writer is not over while one of its
    processes has the output open. *)
Theorem C78_waits m lead sk fr l s l' s' h p :
  reached m lead sk fr l s -> piped sk = true -> ~ is_over s -> alive (w_procs s) h p -> p_mine p = true -> p_out p = true \/ p_err p = true ->
  wsteps l' s s' -> (forall code, AExit h code ∉ l') -> (forall o e, AClose h o e ∉ l') -> AKill ∉ l' -> ~ is_over s'.
Proof. intros Hr Hp Ho Ha Hm Hop Hl' He Hc Hk. eapply stuck; eauto. rewrite (proj2 (proj2 (reached_good _ _ _ _ _ _ Hr))). exact Hp. Qed.
Print Assumptions C78_waits.

(** So hiding the output of a command that leaves something in the background makes bab
    wait for it, where otherwise it does not. *)
Theorem C78_refuted : exists l h,
  (exists s, reached only_bab 2 Screen 1 (l ++ [AReturn]) s /\ w_phase s = Over None /\ exists p, alive (w_procs s) h p) /\
  (exists s, reached only_bab 2 Nowhere 1 l s /\
     forall l' s', wsteps l' s s' -> (forall code, AExit h code ∉ l') -> (forall o e, AClose h o e ∉ l') -> AKill ∉ l' -> ~ is_over s').
Proof.
  exists [AFork 2 3; AExit 2 0; AReap; AReceive], 3. split.
  - eexists. split; [split; [exact only_bab_begins|]|].
    + eapply WCons; [eapply (SFork _ _ _ _ _ _ _ _ 2 3); [live|reflexivity|free]|]. eapply WCons; [eapply (SExit _ _ _ _ _ _ _ _ 2); live|].
      eapply WCons; [eapply SReap; [discriminate|look|reflexivity]|]. eapply WCons; [apply SReceive; discriminate|]. eapply WCons; [apply SReturn; discriminate|apply WNil].
    + split; [reflexivity|]. eexists. split; [look|reflexivity].
  - eexists. split; [split; [exact only_bab_begins|]|].
    + eapply WCons; [eapply (SFork _ _ _ _ _ _ _ _ 2 3); [live|reflexivity|free]|]. eapply WCons; [eapply (SExit _ _ _ _ _ _ _ _ 2); live|].
      eapply WCons; [eapply SReap; [discriminate|look|reflexivity]|]. eapply WCons; [apply SReceive; discriminate|apply WNil].
    + intros l' s' Hl' He Hc Hk. eapply (stuck _ _ _ 3); [exact Hl'|exact He|exact Hc|exact Hk|reflexivity|intros [r [=]]|split; [look|reflexivity]|reflexivity|left; reflexivity].
Qed.
Print Assumptions C78_refuted.

(** ** C79 *)
(** Whatever the command starts is stopped when it reads from the terminal, unless it
    changes groups. *)
Theorem C79_background m lead sk fr l s s' i p :
  (exists j q, m !! j = Some q /\ p_group q = fr) -> reached m lead sk fr l s -> stays l -> (forall g, AFront g ∉ l) ->
  w_procs s !! i = Some p -> p_mine p = true -> wstep (ARead i) s s' -> exists p', w_procs s' !! i = Some p' /\ p_mine p' = true /\ p_stopped p' = true.
Proof.
  intros (j & q & Hj & Hq) Hr Hst Hf Hi Hm Hs. pose proof (reached_tame _ _ _ _ _ _ Hr Hst _ _ Hi Hm) as [Hg _]. destruct (reached_good _ _ _ _ _ _ Hr) as (_ & El & _). rewrite El in Hg.
  assert (F : w_front s = fr).
  { destruct Hr as [_ Hl]. assert (K : forall l s0 s', wsteps l s0 s' -> (forall g, AFront g ∉ l) -> w_front s' = w_front s0).
    { clear. induction 1 as [|a l s0 s1 s' Hs _ IH]; [auto|]. intros Hf. rewrite IH by (intros g H; apply (Hf g); right; exact H). destruct Hs; try reflexivity. exfalso. apply (Hf g). left. }
    apply (K _ _ _ Hl Hf). }
  assert (lead <> fr) by (intros ->; destruct Hr as [[[_ Hu] _] _]; exact (Hu _ _ Hj Hq)).
  inversion Hs; subst; cbn in *.
  - exfalso. match goal with H : active _ i ?p0 |- _ => destruct H as [[Hi' _] _]; assert (p0 = p) by congruence; subst p0 end. congruence.
  - match goal with H : active _ i ?p0 |- _ => destruct H as [[Hi' _] _]; assert (p0 = p) by congruence; subst p0 end. rewrite lookup_insert. eexists. split; [reflexivity|]. auto.
Qed.
Print Assumptions C79_background.

(** While the first process is stopped bab waits, until somebody continues or kills it. *)
Theorem C79_stopped m lead sk fr l s l' s' p :
  reached m lead sk fr l s -> w_phase s = Waiting -> alive (w_procs s) lead p -> p_stopped p = true -> wsteps l' s s' -> ACont lead ∉ l' -> AKill ∉ l' ->
  w_phase s' = Waiting /\ exists p', alive (w_procs s') lead p' /\ p_stopped p' = true.
Proof.
  intros Hr Hp Ha Hst Hl' Hc Hk. destruct (reached_good _ _ _ _ _ _ Hr) as (G & El & _).
  assert (Hm : p_mine p = true) by (destruct (g_lead s G Hp) as (q & Hq & Hqm); rewrite El in Hq; destruct Ha as [Ha _]; congruence).
  clear Hr G. revert p Ha Hst Hm. induction Hl' as [|a l' s s1 s' Hs _ IH]; [eauto|]. intros p Ha Hst Hm.
  destruct (keeps_step a s s1 lead p Hs) as (p1 & Ha1 & Hm1 & _ & _ & Hst1); [intros ->; apply Hk; left| |exact Ha|exact Hm|].
  { intros code ->. inversion Hs; subst. cbn in *. match goal with H : active _ _ ?p0 |- _ => destruct H as [[Hi' _] Hs']; destruct Ha as [Ha _]; assert (p0 = p) by congruence; subst p0 end. congruence. }
  apply (IH) with (p := p1); try exact Ha1; try exact Hm1.
  - destruct Hs; cbn in *; try exact Hp; try discriminate. subst. destruct Ha as [Ha Hx]. congruence.
  - intros H. apply Hc. right. exact H.
  - intros H. apply Hk. right. exact H.
  - rewrite (proj1 (step_lead _ _ _ Hs)). exact El.
  - apply Hst1; [exact Hst|]. intros ->. apply Hc. left.
Qed.
Print Assumptions C79_stopped.

(** So a command that asks a question at the terminal never gets its answer. *)
Theorem C79_refuted : exists l s, reached only_bab 2 Screen 1 l s /\ l = [ARead 2] /\
  forall l' s', wsteps l' s s' -> ACont 2 ∉ l' -> AKill ∉ l' -> ~ is_over s'.
Proof.
  set (s0 := World (<[2 := MkProc 2 true true true true true None]> (<[2 := first_process 2]> only_bab)) 2 Screen Waiting Watching false Catching 1).
  exists [ARead 2], s0. assert (Hr : reached only_bab 2 Screen 1 [ARead 2] s0).
  { split; [exact only_bab_begins|]. eapply WCons; [|apply WNil]. apply (SReadBack _ _ _ _ _ _ _ _ 2 (first_process 2)); [live|discriminate]. }
  split; [exact Hr|]. split; [reflexivity|]. intros l' s' Hl' Hc Hk [r Ho].
  assert (Ha : alive (w_procs s0) 2 (MkProc 2 true true true true true None)) by (split; [look|reflexivity]).
  destruct (C79_stopped _ _ _ _ _ _ _ _ _ Hr eq_refl Ha eq_refl Hl' Hc Hk) as [H _]. congruence.
Qed.
Print Assumptions C79_refuted.
