(** Invariants of [Proc_Model]. *)
From Verif Require Import Base Proc_Model.

(** Before the command nothing is its own, and its number is new. *)
Definition begins (m : table) (lead : nat) : Prop := unused m lead /\ forall i p, m !! i = Some p -> p_mine p = false /\ p_exit p = None.
(** None of the command's processes goes to another group or becomes another user. *)
Definition stays (l : list act) : Prop := Forall (fun a => match a with ALeave _ _ | AUser _ => False | _ => True end) l.
(** The goroutines of bab, without the kill. *)
Definition waits (a : act) : Prop := a = AReap \/ a = AReceive \/ a = AReturn.
Global Instance act_eq_dec : EqDecision act.
Proof. solve_decision. Defined.
Definition turns (l : list act) : nat := length (filter waits l).
Definition is_over (s : world) : Prop := exists r, w_phase s = Over r.
(** No process of the command is left. *)
Definition gone (s : world) : Prop := forall i p, alive (w_procs s) i p -> p_mine p = false.

Record good (s : world) : Prop := {
  g_lead : w_phase s = Waiting -> exists p, w_procs s !! w_lead s = Some p /\ p_mine p = true;
  g_group : w_phase s = Waiting -> forall i p, w_procs s !! i = Some p -> p_group p = w_lead s -> p_mine p = true;
  g_dead : w_phase s = Waiting -> forall i p, w_procs s !! i = Some p -> p_exit p <> None -> i = w_lead s }.
Definition tame (s : world) : Prop := forall i p, w_procs s !! i = Some p -> p_mine p = true -> p_group p = w_lead s /\ p_kill p = true.

Lemma lookup_kill lead g m i : kill_group lead g m !! i = m !! i ≫= fun p =>
    if decide (p_group p = g /\ p_kill p = true)
    then if decide (i = lead)
         then Some (match p_exit p with None => MkProc (p_group p) (p_mine p) (p_kill p) (p_out p) (p_err p) false (Some 137) | Some _ => p end)
         else None
    else Some p.
Proof. apply map_lookup_imap. Qed.

(** Whoever is there after the kill was there before, and the same but for its end. *)
Lemma kill_inv lead g m i p : kill_group lead g m !! i = Some p ->
  exists p0, m !! i = Some p0 /\ p_group p = p_group p0 /\ p_mine p = p_mine p0 /\ p_kill p = p_kill p0 /\ p_out p = p_out p0 /\ p_err p = p_err p0 /\
    (p = p0 \/ i = lead /\ p_group p0 = g /\ p_exit p = Some 137) /\ (p_group p0 = g -> p_kill p0 = true -> p_exit p <> None).
Proof.
  rewrite lookup_kill. destruct (m !! i) as [p0|]; [|discriminate]. cbn. intros H. exists p0. split; [reflexivity|].
  case_decide as Hd.
  - case_decide as Hi; [|discriminate]. injection H as <-. destruct (p_exit p0) eqn:E; cbn.
    + repeat split; auto. congruence.
    + repeat split; auto. right. tauto.
  - injection H as <-. repeat split; auto.
Qed.
Lemma kill_none lead g m i : m !! i = None -> kill_group lead g m !! i = None.
Proof. intros H. rewrite lookup_kill, H. reflexivity. Qed.
Lemma kill_other lead g m i p : m !! i = Some p -> p_group p <> g -> kill_group lead g m !! i = Some p.
Proof. intros H Hg. rewrite lookup_kill, H. cbn. rewrite decide_False by tauto. reflexivity. Qed.
Lemma kill_lead lead g m p : m !! lead = Some p -> exists p', kill_group lead g m !! lead = Some p' /\ p_mine p' = p_mine p.
Proof.
  intros H. rewrite lookup_kill, H. cbn. case_decide; [rewrite decide_True by reflexivity|eauto]. eexists. split; [reflexivity|]. destruct (p_exit p); reflexivity.
Qed.

Lemma ended_inv lead i code p m j q : ended lead i code p m !! j = Some q ->
  m !! j = Some q /\ j <> i \/ i = lead /\ j = i /\ q = MkProc (p_group p) (p_mine p) (p_kill p) (p_out p) (p_err p) false (Some code).
Proof.
  unfold ended. case_decide as Hi.
  - destruct (decide (j = i)) as [->|Hj]; [rewrite lookup_insert; intros [= <-]; right; auto|rewrite lookup_insert_ne by congruence; auto].
  - destruct (decide (j = i)) as [->|Hj]; [rewrite lookup_delete; discriminate|rewrite lookup_delete_ne by congruence; auto].
Qed.

Ltac ins H := match type of H with
  | <[?i := _]> _ !! ?j = Some _ => destruct (decide (j = i)) as [->|?]; [rewrite lookup_insert in H; injection H as <-|rewrite lookup_insert_ne in H by congruence]
  end.

Lemma good_start m lead s fr : begins m lead -> good (started m lead s fr).
Proof.
  intros [[Hn Hu] Hb]. unfold started. split; cbn; intros _.
  - exists (first_process lead). rewrite lookup_insert. auto.
  - intros i p H Hg. ins H; [reflexivity|]. destruct (Hu _ _ H Hg).
  - intros i p H Hx. ins H; [reflexivity|]. destruct (Hb _ _ H) as [_ E]. contradiction.
Qed.
Lemma tame_start m lead s fr : begins m lead -> tame (started m lead s fr).
Proof. intros [_ Hb] i p H Hm. unfold started in *. cbn in *. ins H; [auto|]. destruct (Hb _ _ H). congruence. Qed.

Lemma step_lead a s s' : wstep a s s' -> w_lead s' = w_lead s /\ w_sink s' = w_sink s.
Proof. destruct 1; auto. Qed.

Lemma good_step a s s' : wstep a s s' -> good s -> good s'.
Proof.
  destruct 1 as [m l s ph w c sf fr i j p Hact Hmine Hun|m l s ph w c sf fr i p o e Hact Hmine|m l s ph w c sf fr i p g Hact Hmine Hg|m l s ph w c sf fr i p Hact Hmine
    |m l s ph w c sf fr i p code Hact|m l s ph w c sf i p Hact|m l s ph w c sf fr i p Hact Hne|m l s ph w c sf fr i p Hal|m l s ph w c sf fr g
    |m l s ph w c sf fr i p Hun Hmine Hex Hg|m l s ph w c sf fr i p g Hact Hmine Hg|m l s ph w c fr|m l s ph w c fr|m l s ph w fr|m l s ph w c sf fr Hsf
    |m l s ph sf fr Hsf|m l s w c sf fr p code Hsf Hp Hex|m l s code w c sf fr Hsf|m l s e w c sf fr Hsf Hpipe];
    intros [G1 G2 G3]; split; cbn in *; try (intros; discriminate); try exact G1; try exact G2; try exact G3; intros Hph; specialize (G1 Hph) as (pl & Hl & Hml); specialize (G2 Hph); specialize (G3 Hph);
    try destruct Hact as [[Hi Hx] Hst]; try destruct Hal as [Hi Hx].
  (* fork *)
  - destruct Hun as [Hj _]. rewrite lookup_insert_ne by congruence. eauto.
  - intros i' p' H Hg. ins H; [exact Hmine|]. eauto.
  - intros i' p' H Hg. ins H; [contradiction|]. eauto.
  (* close *)
  - destruct (decide (i = l)) as [->|Hne]; [rewrite lookup_insert; eexists; split; [reflexivity|exact Hmine]|rewrite lookup_insert_ne by congruence; eauto].
  - intros i' p' H Hg. ins H; [exact Hmine|]. eauto.
  - intros i' p' H Hg. ins H; [cbn in Hg; contradiction|]. eauto.
  (* leave *)
  - destruct (decide (i = l)) as [->|Hne]; [rewrite lookup_insert; eexists; split; [reflexivity|exact Hmine]|rewrite lookup_insert_ne by congruence; eauto].
  - intros i' p' H Hg'. ins H; [exact Hmine|]. eauto.
  - intros i' p' H Hg'. ins H; [cbn in Hg'; contradiction|]. eauto.
  (* user *)
  - destruct (decide (i = l)) as [->|Hne]; [rewrite lookup_insert; eexists; split; [reflexivity|exact Hmine]|rewrite lookup_insert_ne by congruence; eauto].
  - intros i' p' H Hg'. ins H; [exact Hmine|]. eauto.
  - intros i' p' H Hg'. ins H; [cbn in Hg'; contradiction|]. eauto.
  (* exit *)
  - unfold ended. case_decide as Hd; [|rewrite lookup_delete_ne by congruence; eauto]. subst i. rewrite lookup_insert. eexists. split; [reflexivity|]. cbn. congruence.
  - intros i' p' H Hg. apply ended_inv in H as [[H _]|(Hd & -> & ->)]; [eauto|]. cbn in *. subst. eauto.
  - intros i' p' H Hg. apply ended_inv in H as [[H _]|(Hd & -> & ->)]; eauto.
  (* read in the background *)
  - destruct (decide (i = l)) as [->|Hn]; [rewrite lookup_insert; eexists; split; [reflexivity|cbn; congruence]|rewrite lookup_insert_ne by congruence; eauto].
  - intros i' p' H Hg. ins H; [cbn in *; eauto|]. eauto.
  - intros i' p' H Hg. ins H; [cbn in Hg; contradiction|]. eauto.
  (* cont *)
  - destruct (decide (i = l)) as [->|Hn]; [rewrite lookup_insert; eexists; split; [reflexivity|cbn; congruence]|rewrite lookup_insert_ne by congruence; eauto].
  - intros i' p' H Hg. ins H; [cbn in *; eauto|]. eauto.
  - intros i' p' H Hg. ins H; [cbn in Hg; contradiction|]. eauto.
  (* others *)
  - destruct Hun as [Hj _]. rewrite lookup_insert_ne by congruence. eauto.
  - intros i' p' H Hg'. ins H; [|eauto]. exfalso. destruct Hun as [Hi Hun]. destruct Hg as [Hg|(j & q & Hj & Hjg & Hjm)].
    + rewrite Hg' in Hg. subst l. rewrite Hi in Hl. discriminate.
    + rewrite (G2 _ _ Hj) in Hjm by congruence. discriminate.
  - intros i' p' H Hg'. ins H; [contradiction|]. eauto.
  - rewrite lookup_insert_ne; [eauto|]. intros ->. rewrite Hi in Hl. injection Hl as ->. congruence.
  - intros i' p' H Hg'. ins H; [|eauto]. exfalso. cbn in Hg'. subst g. destruct Hg as [Hg|(j & q & Hj & Hjg & Hjm)].
    + subst l. rewrite Hi in Hl. injection Hl as ->. congruence.
    + rewrite (G2 _ _ Hj) in Hjm by congruence. discriminate.
  - intros i' p' H Hg'. ins H; [cbn in Hg'; contradiction|]. eauto.
  (* kill *)
  - destruct (kill_lead l l m pl Hl) as (p' & H1 & H2). exists p'. split; [exact H1|congruence].
  - intros i p H Hg. apply kill_inv in H as (p0 & H0 & E1 & E2 & _). rewrite E2. apply (G2 i); [exact H0|congruence].
  - intros i p H Hg. apply kill_inv in H as (p0 & H0 & _ & _ & _ & _ & _ & [->|(-> & _)] & _); eauto.
Qed.

Lemma tame_step a s s' : wstep a s s' -> stays [a] -> tame s -> tame s'.
Proof.
  intros Hs Ha T. inversion Ha as [|? ? Ha' _]; subst. clear Ha. unfold tame in *.
  destruct Hs as [m l s ph w c sf fr i j p Hact Hmine Hun|m l s ph w c sf fr i p o e Hact Hmine|m l s ph w c sf fr i p g Hact Hmine Hg|m l s ph w c sf fr i p Hact Hmine
    |m l s ph w c sf fr i p code Hact|m l s ph w c sf i p Hact|m l s ph w c sf fr i p Hact Hne|m l s ph w c sf fr i p Hal|m l s ph w c sf fr g
    |m l s ph w c sf fr i p Hun Hmine Hex Hg|m l s ph w c sf fr i p g Hact Hmine Hg|m l s ph w c fr|m l s ph w c fr|m l s ph w fr|m l s ph w c sf fr Hsf
    |m l s ph sf fr Hsf|m l s w c sf fr p code Hsf Hp Hex|m l s code w c sf fr Hsf|m l s e w c sf fr Hsf Hpipe];
    cbn in *; try contradiction; try exact T; intros i' p' H Hm; try destruct Hact as [[Hi Hx] Hst]; try destruct Hal as [Hi Hx].
  - ins H; eauto.
  - ins H; cbn in *; eauto.
  - apply ended_inv in H as [[H _]|(Hd & -> & ->)]; cbn in *; eauto.
  - ins H; cbn in *; eauto.
  - ins H; cbn in *; eauto.
  - ins H; [congruence|eauto].
  - ins H; [cbn in Hm; congruence|eauto].
  - apply kill_inv in H as (p0 & H0 & E1 & E2 & E3 & _). rewrite E1, E3. apply (T i'); [exact H0|congruence].
  - destruct (decide (i' = l)) as [->|Hn]; [rewrite lookup_delete in H; discriminate|]. rewrite lookup_delete_ne in H by congruence. eauto.
Qed.

(** Once no process of the command is left, there is none. *)
Lemma gone_step a s s' : wstep a s s' -> gone s -> gone s'.
Proof.
  intros Hs T. unfold gone, alive in *.
  destruct Hs as [m l s ph w c sf fr i j p Hact Hmine Hun|m l s ph w c sf fr i p o e Hact Hmine|m l s ph w c sf fr i p g Hact Hmine Hg|m l s ph w c sf fr i p Hact Hmine
    |m l s ph w c sf fr i p code Hact|m l s ph w c sf i p Hact|m l s ph w c sf fr i p Hact Hne|m l s ph w c sf fr i p Hal|m l s ph w c sf fr g
    |m l s ph w c sf fr i p Hun Hmine Hex Hg|m l s ph w c sf fr i p g Hact Hmine Hg|m l s ph w c fr|m l s ph w c fr|m l s ph w fr|m l s ph w c sf fr Hsf
    |m l s ph sf fr Hsf|m l s w c sf fr p code Hsf Hp Hex|m l s code w c sf fr Hsf|m l s e w c sf fr Hsf Hpipe];
    cbn in *; try exact T; intros i' p' [H Hx']; try destruct Hact as [[Hi Hx] Hst]; try destruct Hal as [Hi Hx].
  - rewrite (T i p) in Hmine by auto. discriminate.
  - rewrite (T i p) in Hmine by auto. discriminate.
  - rewrite (T i p) in Hmine by auto. discriminate.
  - rewrite (T i p) in Hmine by auto. discriminate.
  - apply ended_inv in H as [[H _]|(Hd & -> & ->)]; [eauto|discriminate].
  - ins H; [cbn; eauto|eauto].
  - ins H; [cbn; eauto|eauto].
  - ins H; eauto.
  - ins H; [exact Hmine|eauto].
  - apply kill_inv in H as (p0 & H0 & _ & _ & _ & _ & _ & [->|(-> & _ & E)] & _); [eauto|congruence].
  - destruct (decide (i' = l)) as [->|Hn]; [rewrite lookup_delete in H; discriminate|]. rewrite lookup_delete_ne in H by congruence. eauto.
Qed.

Lemma wsteps_app l1 l2 s s' s'' : wsteps l1 s s' -> wsteps l2 s' s'' -> wsteps (l1 ++ l2) s s''.
Proof. induction 1; [auto|]. intros. econstructor; eauto. Qed.
Lemma wsteps_app_inv l1 l2 s s'' : wsteps (l1 ++ l2) s s'' -> exists s', wsteps l1 s s' /\ wsteps l2 s' s''.
Proof.
  revert s. induction l1 as [|a l1 IH]; intros s H; [exists s; split; [constructor|exact H]|].
  inversion H as [|? ? ? s1 ? H1 H2]; subst. apply IH in H2 as (s' & H2 & H3). exists s'. split; [econstructor; eauto|exact H3].
Qed.

Lemma steps_inv (P : world -> Prop) : (forall a s s', wstep a s s' -> P s -> P s') -> forall l s s', wsteps l s s' -> P s -> P s'.
Proof. intros HP l s s' H. induction H; eauto. Qed.
Lemma steps_lead l s s' : wsteps l s s' -> w_lead s' = w_lead s /\ w_sink s' = w_sink s.
Proof. induction 1 as [|a l s s' s'' H _ [IH1 IH2]]; [auto|]. apply step_lead in H as [E1 E2]. split; congruence. Qed.
Lemma tame_steps l s s' : wsteps l s s' -> stays l -> tame s -> tame s'.
Proof. induction 1 as [|a l s s' s'' H _ IH]; [auto|]. intros Hl T. inversion Hl; subst. apply IH; [assumption|]. eapply tame_step; [exact H| |exact T]. repeat constructor. assumption. Qed.

Lemma kill_gone s s' : tame s -> wstep AKill s s' -> gone s'.
Proof.
  intros T H. inversion H; subst. intros i p [Hi Hx]. cbn in *. apply kill_inv in Hi as (p0 & Hp0 & E1 & E2 & E3 & _ & _ & _ & Hk).
  destruct (p_mine p) eqn:Em; [|reflexivity]. exfalso. destruct (T i p0 Hp0) as [T1 T2]; [congruence|]. cbn in T1. apply (Hk T1 T2). exact Hx.
Qed.

(** A goroutine of bab that waits gets on when the command has ended. *)
Lemma gone_wait s : good s -> gone s -> w_self s <> Dead -> is_over s \/ exists a s', waits a /\ wstep a s s'.
Proof.
  intros [G1 _ _] Hg Hs. destruct s as [m l sk ph w c sf fr]. unfold gone in Hg. cbn in *. destruct ph as [|code|e|r].
  - destruct (G1 eq_refl) as (p & Hl & Hm). destruct (p_exit p) as [code|] eqn:Ex; [|rewrite (Hg l p) in Hm by (split; assumption); discriminate].
    right. exists AReap. eexists. split; [left; reflexivity|]. econstructor; eauto.
  - right. exists AReceive. eexists. split; [right; left; reflexivity|]. constructor; exact Hs.
  - right. exists AReturn. eexists. split; [right; right; reflexivity|]. constructor; [exact Hs|]. intros _ (i & p & Ha & Hm & _). rewrite (Hg i p Ha) in Hm. discriminate.
  - left. exists r. reflexivity.
Qed.

Definition left_to_do (s : world) : nat := match w_phase s with Waiting => 3 | Reaped _ => 2 | Draining _ => 1 | Over _ => 0 end.
Lemma step_turns a s s' : wstep a s s' -> left_to_do s = turns [a] + left_to_do s'.
Proof.
  intros H. unfold turns. destruct H; unfold left_to_do; cbn [w_phase]; rewrite ?filter_cons, ?filter_nil; unfold waits;
  repeat (first [rewrite decide_False by (intros [H|[H|H]]; discriminate)|rewrite decide_True by tauto]); reflexivity.
Qed.
Lemma steps_turns l s s' : wsteps l s s' -> left_to_do s = turns l + left_to_do s'.
Proof.
  induction 1 as [|a l s s' s'' H _ IH]; [reflexivity|]. apply step_turns in H. rewrite H, IH. unfold turns. change (a :: l) with ([a] ++ l). rewrite filter_app, app_length. lia.
Qed.

(** Without a kill between, a process of the command goes on until its own end. *)
Lemma keeps_step a s s' i p : wstep a s s' -> a <> AKill -> (forall code, a <> AExit i code) -> alive (w_procs s) i p -> p_mine p = true ->
  exists p', alive (w_procs s') i p' /\ p_mine p' = true /\ ((forall o e, a <> AClose i o e) -> p_out p' = p_out p /\ p_err p' = p_err p) /\ ((forall j g, a <> ALeave j g) -> p_group p' = p_group p)
    /\ (p_stopped p = true -> a <> ACont i -> p_stopped p' = true).
Proof.
  intros Hs Hk He [Hi Hx] Hm. unfold alive.
  destruct Hs as [m l s ph w c sf fr k j q Hact Hmine Hun|m l s ph w c sf fr k q o e Hact Hmine|m l s ph w c sf fr k q g Hact Hmine Hg|m l s ph w c sf fr k q Hact Hmine
    |m l s ph w c sf fr k q code Hact|m l s ph w c sf k q Hact|m l s ph w c sf fr k q Hact Hne|m l s ph w c sf fr k q Hal|m l s ph w c sf fr g
    |m l s ph w c sf fr k q Hun Hmine Hex Hg|m l s ph w c sf fr k q g Hact Hmine Hg|m l s ph w c fr|m l s ph w c fr|m l s ph w fr|m l s ph w c sf fr Hsf
    |m l s ph sf fr Hsf|m l s w c sf fr q code Hsf Hp Hex|m l s code w c sf fr Hsf|m l s e w c sf fr Hsf Hpipe];
    cbn in *; try (exists p; repeat split; auto; fail); try contradiction; try destruct Hact as [[Hk' Hx'] Hst]; try destruct Hal as [Hk' Hx'].
  - destruct Hun as [Hj _]. exists p. rewrite lookup_insert_ne by congruence. repeat split; auto.
  - destruct (decide (i = k)) as [->|Hne]; [|exists p; rewrite lookup_insert_ne by congruence; repeat split; auto]. assert (q = p) as -> by congruence. rewrite lookup_insert.
    eexists. split; [split; [reflexivity|reflexivity]|]. cbn. repeat split; auto; try congruence; match goal with H : forall o0 e0 : bool, _ |- _ => exfalso; apply (H o e); reflexivity end.
  - destruct (decide (i = k)) as [->|Hne]; [|exists p; rewrite lookup_insert_ne by congruence; repeat split; auto]. assert (q = p) as -> by congruence. rewrite lookup_insert.
    eexists. split; [split; [reflexivity|reflexivity]|]. cbn. repeat split; auto; try congruence.
  - destruct (decide (i = k)) as [->|Hne]; [|exists p; rewrite lookup_insert_ne by congruence; repeat split; auto]. assert (q = p) as -> by congruence. rewrite lookup_insert.
    eexists. split; [split; [reflexivity|reflexivity]|]. cbn. repeat split; auto; congruence.
  - destruct (decide (i = k)) as [->|Hne]; [exfalso; apply (He code); reflexivity|]. exists p. split; [|repeat split; auto]. split; [|exact Hx]. unfold ended. case_decide; [rewrite lookup_insert_ne by congruence|rewrite lookup_delete_ne by congruence]; exact Hi.
  - destruct (decide (i = k)) as [->|Hne']; [|exists p; rewrite lookup_insert_ne by congruence; repeat split; auto]. assert (q = p) as -> by congruence. rewrite lookup_insert.
    eexists. split; [split; [reflexivity|reflexivity]|]. cbn. repeat split; auto.
  - destruct (decide (i = k)) as [->|Hne']; [|exists p; rewrite lookup_insert_ne by congruence; repeat split; auto]. assert (q = p) as -> by congruence. rewrite lookup_insert.
    eexists. split; [split; [reflexivity|reflexivity]|]. cbn. repeat split; auto.
  - destruct Hun as [Hj _]. exists p. rewrite lookup_insert_ne by congruence. repeat split; auto.
  - exists p. rewrite lookup_insert_ne; [repeat split; auto|]. intros ->. congruence.
  - exists p. rewrite lookup_delete_ne; [repeat split; auto|]. intros ->. congruence.
Qed.

(** ** What the history tells *)
(** The first process ended with [code] in the history [l]. *)
Definition first_ended (lead : nat) (l : list act) (code : nat) : Prop := AExit lead code ∈ l \/ AKill ∈ l /\ code = 137.
Definition collected (lead : nat) (l : list act) (code : nat) : Prop := exists l1 l2, l = l1 ++ AReap :: l2 /\ AReap ∉ l1 /\ first_ended lead l1 code.
Definition err_is (l : list act) (code : nat) (e : option cerr) : Prop :=
  (e = None <-> code = 0 /\ AKill ∉ l) /\ (forall c, e = Some (CExit c) -> c = code /\ c <> 0) /\ (e = Some CCancelled -> AKill ∈ l).

Definition tells (l : list act) (s : world) : Prop :=
  (w_watch s = Watching -> AKill ∉ l) /\ (w_watch s = Fired -> AKill ∈ l) /\ (AKill ∈ l -> w_cancelled s = true) /\
  (w_cancelled s = true -> ASignal ∈ l \/ AQuit ∈ l) /\
  match w_phase s with
  | Waiting => w_watch s <> Gone /\ AReap ∉ l /\ forall p code, w_procs s !! w_lead s = Some p -> p_exit p = Some code -> first_ended (w_lead s) l code
  | Reaped code => w_watch s <> Gone /\ collected (w_lead s) l code
  | Draining e => w_watch s = Gone /\ exists code, collected (w_lead s) l code /\ err_is l code e
  | Over r => w_watch s = Gone /\ exists code, collected (w_lead s) l code /\ (r = None <-> code = 0 /\ AKill ∉ l) /\
      (forall c, r = Some (CExit c) -> c = code /\ c <> 0 /\ AKill ∉ l) /\ (r = Some CCancelled -> ASignal ∈ l \/ AQuit ∈ l)
  end.

Lemma in_snoc (a b : act) l : a ∈ l ++ [b] <-> a ∈ l \/ a = b.
Proof. rewrite elem_of_app, elem_of_list_singleton. reflexivity. Qed.
Lemma collected_snoc lead l code a : collected lead l code -> collected lead (l ++ [a]) code.
Proof. intros (l1 & l2 & -> & H1 & H). exists l1, (l2 ++ [a]). rewrite <- app_assoc. auto. Qed.
Lemma first_snoc lead l code a : first_ended lead l code -> first_ended lead (l ++ [a]) code.
Proof. unfold first_ended. rewrite !in_snoc. tauto. Qed.

(** Steps that change neither bab nor the history of the kill. *)
Lemma tells_phase l a s s' : tells l s -> a <> AKill -> a <> AReap -> w_watch s' = w_watch s -> (w_cancelled s' = true <-> w_cancelled s = true) ->
  w_phase s' = w_phase s -> w_lead s' = w_lead s ->
  (w_phase s = Waiting -> forall p code, w_procs s' !! w_lead s = Some p -> p_exit p = Some code -> first_ended (w_lead s) (l ++ [a]) code) ->
  tells (l ++ [a]) s'.
Proof.
  intros (T1 & T2 & T3 & T4 & T5) Hk Hr Ew Ec Ep El Hw. unfold tells. rewrite Ew, Ec, Ep, El.
  assert (K : AKill ∈ l ++ [a] <-> AKill ∈ l) by (rewrite in_snoc; intuition congruence).
  assert (R : AReap ∈ l ++ [a] <-> AReap ∈ l) by (rewrite in_snoc; intuition congruence).
  rewrite K. split; [exact T1|]. split; [exact T2|]. split; [exact T3|]. split; [intros Hc; rewrite !in_snoc; destruct (T4 Hc); auto|].
  destruct (w_phase s) as [|code|e|r].
  - destruct T5 as (T5 & T6 & _). rewrite R. split; [exact T5|]. split; [exact T6|]. apply Hw. reflexivity.
  - destruct T5 as (T5 & T6). split; [exact T5|]. apply collected_snoc, T6.
  - destruct T5 as (T5 & code & T6 & T7). split; [exact T5|]. exists code. split; [apply collected_snoc, T6|]. unfold err_is. rewrite K. exact T7.
  - destruct T5 as (T5 & code & T6 & T7 & T8 & T9). split; [exact T5|]. exists code. split; [apply collected_snoc, T6|]. rewrite K. split; [exact T7|]. split; [intros c Hc; destruct (T8 c Hc) as (? & ? & ?); rewrite K; auto|].
    intros Hc. rewrite !in_snoc. destruct (T9 Hc); auto.
Qed.

Lemma tells_step l a s s' : good s -> wstep a s s' -> tells l s -> tells (l ++ [a]) s'.
Proof.
  intros HG Hs T. pose proof T as T0. destruct T0 as (T1 & T2 & T3 & T4 & T5).
  destruct Hs as [m l0 s ph w c sf fr i j p Hact Hmine Hun|m l0 s ph w c sf fr i p o e Hact Hmine|m l0 s ph w c sf fr i p g Hact Hmine Hg|m l0 s ph w c sf fr i p Hact Hmine
    |m l0 s ph w c sf fr i p code Hact|m l0 s ph w c sf i p Hact|m l0 s ph w c sf fr i p Hact Hne|m l0 s ph w c sf fr i p Hal|m l0 s ph w c sf fr g
    |m l0 s ph w c sf fr i p Hun Hmine Hex Hg|m l0 s ph w c sf fr i p g Hact Hmine Hg|m l0 s ph w c fr|m l0 s ph w c fr|m l0 s ph w fr|m l0 s ph w c sf fr Hsf
    |m l0 s ph sf fr Hsf|m l0 s w c sf fr p code Hsf Hp Hex|m l0 s code w c sf fr Hsf|m l0 s e w c sf fr Hsf Hpipe];
    try destruct Hact as [[Hi Hx] Hst]; try destruct Hal as [Hi Hx];
    try (eapply tells_phase; [exact T|discriminate|discriminate|reflexivity|reflexivity|reflexivity|reflexivity|cbn in *; intros ->; destruct T5 as (_ & _ & T5); intros q code' Hq Hq'];
         try (ins Hq; cbn in *; try congruence; apply first_snoc; eauto; fail); try (apply first_snoc; eauto; fail)).

  - (* exit *) apply ended_inv in Hq as [[Hq _]|(-> & _ & ->)]; [apply first_snoc; eauto|]. cbn in Hq'. injection Hq' as <-. left. rewrite in_snoc. auto.
  - (* signal *) unfold tells. cbn in *.
    assert (K : AKill ∈ l ++ [ASignal] <-> AKill ∈ l) by (rewrite in_snoc; intuition congruence). rewrite K. rewrite in_snoc.
    split; [exact T1|]. split; [exact T2|]. split; [reflexivity|]. split; [auto|]. destruct ph as [|code|e|r].
    + destruct T5 as (T5 & T6 & T7). split; [exact T5|]. split; [rewrite in_snoc; intuition congruence|]. intros; apply first_snoc; eauto.
    + destruct T5 as (T5 & T6). split; [exact T5|]. apply collected_snoc, T6.
    + destruct T5 as (T5 & code & T6 & T7). split; [exact T5|]. exists code. split; [apply collected_snoc, T6|]. unfold err_is. rewrite K. exact T7.
    + destruct T5 as (T5 & code & T6 & T7 & T8 & T9). split; [exact T5|]. exists code. split; [apply collected_snoc, T6|]. split; [rewrite ?K; exact T7|]. split; [|rewrite ?in_snoc; auto]. intros c' Hc; destruct (T8 c' Hc) as (? & ? & ?); rewrite K; auto.
  - (* quit *) unfold tells. cbn in *.
    assert (K : AKill ∈ l ++ [AQuit] <-> AKill ∈ l) by (rewrite in_snoc; intuition congruence). rewrite K, !in_snoc.
    split; [exact T1|]. split; [exact T2|]. split; [reflexivity|]. split; [auto|]. destruct ph as [|code|e|r].
    + destruct T5 as (T5 & T6 & T7). split; [exact T5|]. split; [rewrite in_snoc; intuition congruence|]. intros; apply first_snoc; eauto.
    + destruct T5 as (T5 & T6). split; [exact T5|]. apply collected_snoc, T6.
    + destruct T5 as (T5 & code & T6 & T7). split; [exact T5|]. exists code. split; [apply collected_snoc, T6|]. unfold err_is. rewrite K. exact T7.
    + destruct T5 as (T5 & code & T6 & T7 & T8 & T9). split; [exact T5|]. exists code. split; [apply collected_snoc, T6|]. split; [rewrite ?K; exact T7|]. split; [|rewrite ?in_snoc; auto]. intros c' Hc; destruct (T8 c' Hc) as (? & ? & ?); rewrite K; auto.
  - (* kill *) unfold tells. cbn in *. rewrite !in_snoc. split; [discriminate|]. split; [auto|]. split; [reflexivity|]. split; [intros _; destruct (T4 eq_refl); auto|]. destruct ph as [|code|e|r].
    + destruct T5 as (T5 & T6 & T7). split; [discriminate|]. split; [rewrite in_snoc; intuition congruence|]. intros q code Hq Hq'.
      apply kill_inv in Hq as (p0 & Hp0 & _ & _ & _ & _ & _ & [->|(_ & _ & E)] & _); [apply first_snoc; eauto|]. rewrite E in Hq'. injection Hq' as <-. right. rewrite in_snoc. auto.
    + destruct T5 as (T5 & T6). split; [discriminate|]. apply collected_snoc, T6.
    + destruct T5 as (T5 & _). discriminate.
    + destruct T5 as (T5 & _). discriminate.
  - (* reap *) unfold tells. cbn in *. destruct T5 as (T5 & T6 & T7).
    assert (K : AKill ∈ l ++ [AReap] <-> AKill ∈ l) by (rewrite in_snoc; intuition congruence). rewrite K, !in_snoc.
    split; [exact T1|]. split; [exact T2|]. split; [exact T3|]. split; [intros H; destruct (T4 H); auto|]. split; [exact T5|]. exists l, []. eauto.
  - (* receive *) unfold tells. cbn in *. destruct T5 as (T5 & T6).
    assert (K : AKill ∈ l ++ [AReceive] <-> AKill ∈ l) by (rewrite in_snoc; intuition congruence). rewrite K, !in_snoc.
    split; [discriminate|]. split; [discriminate|]. split; [exact T3|]. split; [intros H; destruct (T4 H); auto|]. split; [reflexivity|]. exists code. split; [apply collected_snoc, T6|].
    unfold err_is. rewrite K. destruct code as [|code].
    + destruct w; [|split|contradiction].
      * split; [split; auto|split; discriminate].
      * split; [discriminate|]. intros [_ H]. destruct (H (T2 eq_refl)).
      * split; [discriminate|]. intros _. exact (T2 eq_refl).
    + split; [split; [discriminate|intros [[=] _]]|]. split; [|discriminate]. intros c' [= <-]. auto.
  - (* return *) unfold tells. cbn in *. destruct T5 as (T5 & code & T6 & T7 & T8 & T9).
    assert (K : AKill ∈ l ++ [AReturn] <-> AKill ∈ l) by (rewrite in_snoc; intuition congruence). rewrite K, !in_snoc.
    split; [exact T1|]. split; [exact T2|]. split; [exact T3|]. split; [intros H; destruct (T4 H); auto|]. split; [exact T5|]. exists code. split; [apply collected_snoc, T6|].
    unfold run_result. destruct e as [e|].
    + split; [split; [discriminate|rewrite K; intros H; apply T7 in H; discriminate]|]. destruct c.
      * split; [discriminate|]. intros _. rewrite !in_snoc. destruct (T4 eq_refl); auto.
      * split; [|intros [= ->]].
        -- intros c [= ->]. destruct (T8 c eq_refl). split; [assumption|]. split; [assumption|]. rewrite K. intros H'. discriminate (T3 H').
        -- discriminate (T3 (T9 eq_refl)).
    + split; [rewrite K; split; [intros _; apply T7; reflexivity|reflexivity]|]. split; discriminate.
Qed.
