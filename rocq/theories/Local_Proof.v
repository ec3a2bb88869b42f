(** Two sets of tasks that agree on what a task leads to: its runs are the same. *)
From Verif Require Import Base Interp_Model Cond_Model Types_Model Path_Model Valid_Spec Run_Model Run_Logic Run_Spec Run_Inv Run_Proof Run_Facts.
From Verif Require Import Sim_Proof Local_Spec.
From Verif Require P_Run_Parse.

Local Arguments resolve_vars : simpl never.
Local Arguments merge_maps : simpl never.
Local Arguments smap_get : simpl never.

(** ** Programs that differ only behind answers that never come *)
Section Alike.
  Context (P : event -> Prop).

  Inductive alike : prog -> prog -> Prop :=
  | al_ret r : alike (Ret r) (Ret r)
  | al_vis e k1 k2 : (forall r, P (obs e r) -> alike (k1 r) (k2 r)) -> alike (Vis e k1) (Vis e k2)
  | al_fork t pa lim c chs1 chs2 log k1 k2 : chs1.*1 = chs2.*1 ->
      (forall j s1 s2 p1 p2, chs1 !! j = Some (s1, p1) -> chs2 !! j = Some (s2, p2) -> alike p1 p2) ->
      (forall l, alike (k1 l) (k2 l)) ->
      alike (Fork t pa lim c chs1 log k1) (Fork t pa lim c chs2 log k2).

  Lemma alike_update (chs1 chs2 : list (cstat * prog)) j s p1 p2 :
    chs1.*1 = chs2.*1 ->
    (forall i s1 s2 q1 q2, chs1 !! i = Some (s1, q1) -> chs2 !! i = Some (s2, q2) -> alike q1 q2) ->
    alike p1 p2 ->
    (<[j := (s, p1)]> chs1).*1 = (<[j := (s, p2)]> chs2).*1 /\
    (forall i s1 s2 q1 q2, <[j := (s, p1)]> chs1 !! i = Some (s1, q1) -> <[j := (s, p2)]> chs2 !! i = Some (s2, q2) -> alike q1 q2).
  Proof.
    intros Hs Ha Hp. split; [rewrite !(fst_insert), Hs; reflexivity|].
    intros i s1 s2 q1 q2 H1 H2. apply list_lookup_insert_Some in H1. apply list_lookup_insert_Some in H2.
    destruct H1 as [(Hi & H1 & _)|(Hne & H1)]; destruct H2 as [(Hi' & H2 & _)|(Hne' & H2)].
    - injection H1 as <- <-. injection H2 as <- <-. exact Hp.
    - contradiction (Hne' Hi).
    - contradiction (Hne Hi').
    - eapply Ha; eassumption.
  Qed.

  Lemma alike_step p1 p2 ev p1' : alike p1 p2 -> pstep p1 ev p1' -> P ev -> exists p2', pstep p2 ev p2' /\ alike p1' p2'.
  Proof.
    intros H. revert ev p1'.
    induction H as [r|e k1 k2 Hk IH|t pa lim c chs1 chs2 log k1 k2 Hst Hch IH Hk IHk]; intros ev p1' Hstep HP.
    - inversion Hstep.
    - apply vis_step in Hstep as (r & -> & ->). exists (k2 r). split; [constructor|apply Hk; exact HP].
    - inversion Hstep; subst.
      + match goal with Hj : chs1 !! ?j = Some (Running, ?p), Hs : pstep ?p ev ?p' |- _ =>
          destruct (same_status chs1 chs2 j _ _ Hst Hj) as (p2 & Hj2);
          destruct (IH j _ _ p p2 Hj Hj2 ev p' Hs HP) as (p2' & Hs2 & Ha2);
          destruct (alike_update chs1 chs2 j Running p' p2' Hst Hch Ha2) as [A B];
          eexists; split; [eapply ps_child; eassumption|apply al_fork; assumption]
        end.
      + match goal with Hj : chs1 !! ?j = Some (Waiting, ?p), Hlim : lim = 0 \/ _ |- _ =>
          destruct (same_status chs1 chs2 j _ _ Hst Hj) as (p2 & Hj2);
          destruct (alike_update chs1 chs2 j Running p p2 Hst Hch (Hch j _ _ _ _ Hj Hj2)) as [A B];
          eexists; split; [apply ps_slot; [exact Hj2|rewrite <- (same_active chs1 chs2 Hst); exact Hlim]|apply al_fork; assumption]
        end.
      + match goal with Hj : chs1 !! ?j = Some (Waiting, ?p), Hlim : lim <> 0 |- _ =>
          destruct (same_status chs1 chs2 j _ _ Hst Hj) as (p2 & Hj2);
          destruct (alike_update chs1 chs2 j Skipped p p2 Hst Hch (Hch j _ _ _ _ Hj Hj2)) as [A B];
          eexists; split; [apply ps_giveup; eassumption|apply al_fork; assumption]
        end.
      + match goal with Hj : chs1 !! ?j = Some (Running, Ret ?r) |- _ =>
          destruct (same_status chs1 chs2 j _ _ Hst Hj) as (p2 & Hj2);
          pose proof (Hch j _ _ _ _ Hj Hj2) as Hr; inversion Hr; subst p2;
          destruct (alike_update chs1 chs2 j Reported (Ret r) (Ret r) Hst Hch (al_ret r)) as [A B];
          eexists; split; [apply ps_return; exact Hj2|apply al_fork; assumption]
        end.
      + match goal with Hj : chs1 !! ?j = Some (Reported, ?p) |- _ =>
          destruct (same_status chs1 chs2 j _ _ Hst Hj) as (p2 & Hj2);
          destruct (alike_update chs1 chs2 j Released p p2 Hst Hch (Hch j _ _ _ _ Hj Hj2)) as [A B];
          eexists; split; [apply ps_free; exact Hj2|apply al_fork; assumption]
        end.
      + exists (k2 log). split; [apply ps_join; eapply same_finished; eassumption|apply Hk].
  Qed.

  Lemma alike_refl p : alike p p.
  Proof.
    revert p. fix IH 1. intros [r|e k|t pa lim c chs log k].
    - constructor.
    - constructor. intros r _. apply IH.
    - assert (HF : Forall (fun x => alike x.2 x.2) chs) by (induction chs as [|x l IHl]; [constructor|constructor; [apply IH|exact IHl]]).
      constructor; [reflexivity| |intros l; apply IH].
      intros j s1 s2 p1 p2 H1 H2. rewrite H1 in H2. injection H2 as <- <-. exact (proj1 (Forall_lookup _ _) HF _ _ H1).
  Qed.

  Lemma alike_bind p1 p2 f1 f2 : alike p1 p2 -> (forall r, alike (f1 r) (f2 r)) -> alike (bind p1 f1) (bind p2 f2).
  Proof.
    intros H Hf. induction H as [r|e k1 k2 Hk IH|t pa lim c chs1 chs2 log k1 k2 Hst Hch IH Hk IHk]; cbn.
    - apply Hf.
    - apply al_vis. exact IH.
    - apply al_fork; assumption.
  Qed.
  Lemma alike_then p1 p2 w q1 q2 : alike p1 p2 -> alike q1 q2 -> alike (and_then p1 w q1) (and_then p2 w q2).
  Proof. intros Hp Hq. apply alike_bind; [exact Hp|]. intros [e|]; [constructor|exact Hq]. Qed.
End Alike.

(** ** Runs of tasks *)
(** The tasks a claim is nested in. *)
Fixpoint callers (sc : scope) : list str :=
  match sc with
  | [] => []
  | FDep T :: r | FRef T _ _ :: r | FPre T _ :: r => T :: callers r
  | FBlock _ _ _ :: r => callers r
  end.

Section Claims.
  Context (k : config) (tasks : taskmap) (root : str).
  Notation good := (good (k_vars k) (step_ok k tasks root)).

  Lemma fresh_once h T s1 s2 : good h -> OClaim T s1 Fresh ∈ h -> OClaim T s2 Fresh ∈ h -> s1 = s2.
  Proof.
    induction 1 as [|h ev Hg IH Ha HG]; intros H1 H2; [inversion H1|].
    apply elem_of_cons in H1. apply elem_of_cons in H2. destruct H1 as [<-|H1].
    - destruct H2 as [[= ->]|H2]; [reflexivity|]. exfalso. apply (claim_claimed h T s2 H2). symmetry. exact Ha.
    - destruct H2 as [<-|H2]; [|exact (IH H1 H2)]. exfalso. apply (claim_claimed h T s1 H1). symmetry. exact Ha.
  Qed.

  (** A nested claim was made by a task that is being run. *)
  Lemma claim_caller h n sc s : good h -> OClaim n sc s ∈ h -> sc <> [] ->
    exists T s', callers sc = T :: callers s' /\ length s' < length sc /\ OClaim T s' Fresh ∈ h /\ is_Some (tasks !! T).
  Proof.
    intros Hg Hin Hne. destruct (good_in _ _ _ _ Hg Hin) as (h0 & Hs & _ & _ & [_ (Hc & _)]).
    assert (Hup : forall ev, ev ∈ h0 -> ev ∈ h) by (intros ev Hev; eapply suffix_elem; [exact Hs|right; exact Hev]).
    destruct sc as [|[T|T pa r|T pa o|T pa] sc']; [congruence| | |destruct Hc|]; cbn in Hc.
    - destruct Hc as (t & pre & post & Ht & _ & _ & _ & Hcl). exists T, sc'. split; [reflexivity|]. split; [cbn; lia|]. eauto.
    - destruct Hc as (_ & _ & _ & t & s' & Ht & Hcl & Hsc). exists T, s'. destruct pa as [|i [|j [|? ?]]]; try contradiction Hsc; cbn in Hsc.
      + subst sc'. split; [reflexivity|]. split; [cbn; lia|]. eauto.
      + destruct Hsc as (o & items & _ & ->). split; [reflexivity|]. split; [cbn; lia|]. eauto.
    - destruct Hc as (_ & o & items & r & t' & (t & Ht & _) & _ & _ & _ & s' & Hcl & ->).
      exists T, s'. split; [reflexivity|]. split; [cbn; lia|]. eauto.
  Qed.

  Lemma claim_callers h n sc s : good h -> OClaim n sc s ∈ h ->
    NoDup (callers sc) /\ forall T, T ∈ callers sc -> exists s', length s' < length sc /\ OClaim T s' Fresh ∈ h /\ is_Some (tasks !! T).
  Proof.
    intros Hg. remember (length sc) as m eqn:Hm. revert n sc s Hm. induction (lt_wf m) as [m _ IH]. intros n sc s -> Hin.
    destruct sc as [|f sc']; [split; [constructor|]; intros T HT; inversion HT|].
    destruct (claim_caller h n (f :: sc') s Hg Hin) as (T & s' & E & Hl & Hcl & HT); [discriminate|].
    rewrite E. destruct (IH (length s') Hl T s' Fresh eq_refl Hcl) as [Hnd Hall]. split.
    - constructor; [|exact Hnd]. intros HTin. destruct (Hall T HTin) as (s2 & Hl2 & Hcl2 & _).
      rewrite (fresh_once h T s' s2 Hg Hcl Hcl2) in Hl2. lia.
    - intros T' HT'. apply elem_of_cons in HT' as [->|HT']; [eauto|]. destruct (Hall T' HT') as (s2 & Hl2 & Hcl2 & Hd).
      exists s2. split; [lia|]. auto.
  Qed.
  Lemma fresh_claim_callers h n sc : good h -> OClaim n sc Fresh ∈ h -> NoDup (n :: callers sc).
  Proof.
    intros Hg Hin. destruct (claim_callers h n sc Fresh Hg Hin) as [Hnd Hall]. constructor; [|exact Hnd].
    intros Hn. destruct (Hall n Hn) as (s' & Hl & Hcl & _). rewrite (fresh_once h n sc s' Hg Hin Hcl) in Hl. lia.
  Qed.
  Lemma claim_reached h n sc s : good h -> OClaim n sc s ∈ h -> rtc (edge tasks) root n.
  Proof.
    intros Hg Hin. destruct (good_in _ _ _ _ Hg Hin) as (h0 & Hs & _ & _ & [_ (_ & Hr)]). eapply P_Run_Parse.reached_rtc. exact Hr.
  Qed.
End Claims.

(** The message about a cycle follows dependencies, so it depends on no other tasks. *)
Lemma same_step tasks1 tasks2 n m : same_from tasks1 tasks2 n -> edge tasks1 n m -> same_from tasks1 tasks2 m.
Proof. intros H He x Hx. apply H. eapply rtc_l; eassumption. Qed.

Lemma same_build_chain tasks1 tasks2 f1 f2 current st chain last seen :
  same_from tasks1 tasks2 last ->
  size ((dom tasks1 ∩ dom tasks2 : gset str) ∖ seen) < f1 -> size ((dom tasks1 ∩ dom tasks2 : gset str) ∖ seen) < f2 ->
  build_chain f1 current tasks1 st chain last seen = build_chain f2 current tasks2 st chain last seen.
Proof.
  revert f2 chain last seen. induction f1 as [|f1 IH]; intros f2 chain last seen Hs H1 H2; [lia|].
  destruct f2 as [|f2]; [lia|]. simpl.
  destruct (decide (last ∈ seen)) as [Hin|Hnin]; [reflexivity|].
  pose proof (Hs last ltac:(reflexivity)) as E. rewrite <- E. destruct (tasks1 !! last) as [t|] eqn:Et; [|reflexivity].
  destruct (filter (fun d => st !! d = Some Active) (t_deps t)) as [|d ds] eqn:Ef; [reflexivity|].
  destruct (decide (d = current)); [reflexivity|].
  assert (Hd : d ∈ t_deps t).
  { assert (H : d ∈ filter (fun d => st !! d = Some Active) (t_deps t)) by (rewrite Ef; left). apply elem_of_list_filter in H as [_ H]. exact H. }
  assert (Hlt : size ((dom tasks1 ∩ dom tasks2 : gset str) ∖ ({[last]} ∪ seen)) < size ((dom tasks1 ∩ dom tasks2 : gset str) ∖ seen)).
  { apply subset_size. split.
    - intros x Hx. apply elem_of_difference in Hx as [A B]. apply elem_of_difference. split; [exact A|]. intros C. apply B. apply elem_of_union. right. exact C.
    - intros Hsub. assert (Hl : last ∈ (dom tasks1 ∩ dom tasks2 : gset str) ∖ seen).
      { apply elem_of_difference. split; [|exact Hnin]. apply elem_of_intersection. split; apply elem_of_dom; [rewrite Et|rewrite <- E]; eauto. }
      apply Hsub in Hl. apply elem_of_difference in Hl as [_ Hl]. apply Hl. apply elem_of_union. left. apply elem_of_singleton. reflexivity. }
  apply IH; [|lia|lia]. eapply same_step; [exact Hs|]. exists t. auto.
Qed.

Section Same.
  Context (k : config) (tasks1 tasks2 : taskmap) (root : str).
  Context (Hkeyed : forall n t, tasks1 !! n = Some t -> t_name t = n).
  Context (Hsame : same_from tasks1 tasks2 root).

  Definition seen_in_run (ev : event) : Prop := exists h p, run_of k tasks1 root h p /\ ev ∈ h.
  Notation alike := (alike seen_in_run).
  Notation below n := (rtc (edge tasks1) root n).
  Notation both := (dom tasks1 ∩ dom tasks2 : gset str).

  Lemma below_same n : below n -> tasks1 !! n = tasks2 !! n.
  Proof. apply Hsame. Qed.
  Lemma below_from n : below n -> same_from tasks1 tasks2 n.
  Proof. intros Hn m Hm. apply Hsame. etrans; eassumption. Qed.
  Lemma below_edge n m : below n -> edge tasks1 n m -> below m.
  Proof. intros Hn He. eapply rtc_r; eassumption. Qed.

  Lemma fits n sc : seen_in_run (OClaim n sc Fresh) -> is_Some (tasks1 !! n) -> S (length (callers sc)) <= size both.
  Proof.
    intros (h & p & Hrun & Hin) Hn. destruct (run_sound k tasks1 root Hkeyed h p Hrun) as [Hg _].
    pose proof (fresh_claim_callers k tasks1 root h n sc Hg Hin) as Hnd.
    change (S (length (callers sc))) with (length (n :: callers sc)).
    rewrite <- (size_list_to_set (C := gset str) (n :: callers sc)) by exact Hnd.
    apply subseteq_size. intros m Hm. apply elem_of_list_to_set in Hm.
    assert (Hm' : below m /\ is_Some (tasks1 !! m)).
    { apply elem_of_cons in Hm as [->|Hm]; [split; [eapply claim_reached; eassumption|exact Hn]|].
      destruct (proj2 (claim_callers k tasks1 root h n sc Fresh Hg Hin) m Hm) as (s' & _ & Hcl & Hd). split; [eapply claim_reached; eassumption|exact Hd]. }
    destruct Hm' as [Hb Hd]. apply elem_of_intersection. split; apply elem_of_dom; [exact Hd|rewrite <- (below_same m Hb); exact Hd].
  Qed.

  Ltac vis := apply al_vis; intros ? ?.

  Section Calls.
    Context (rt1 rt2 : str -> args -> prog) (T : str) (t : task) (sc0 : scope).
    Context (Ht : tasks1 !! T = Some t) (HT : below T) (Hname : t_name t = T).
    Context (Hrt : forall n a, edge tasks1 T n \/ (exists m, edge tasks1 T m /\ edge tasks1 m n) ->
               callers (a_scope a) = T :: callers sc0 -> alike (rt1 n a) (rt2 n a)).

    Lemma alike_run_item it pa l env a : (forall r, it = RTask r -> edge tasks1 T (r_task r)) -> callers (a_scope a) = callers sc0 ->
      alike (execute_run_item k rt1 it t pa l env a) (execute_run_item k rt2 it t pa l env a).
    Proof.
      intros He Hsc. destruct it as [c|r|lg|p|o items]; simpl; try apply alike_refl.
      destruct (k_dry k); [apply alike_refl|]. apply Hrt; [left; apply He; reflexivity|]. cbn. rewrite Hname, Hsc. reflexivity.
    Qed.

    Lemma alike_pre_deps deps m : edge tasks1 T m -> (forall d, d ∈ deps -> edge tasks1 m d) -> forall seen a kk1 kk2, callers (a_scope a) = T :: callers sc0 ->
      (forall s, alike (kk1 s) (kk2 s)) -> alike (pre_deps rt1 deps seen a kk1) (pre_deps rt2 deps seen a kk2).
    Proof.
      intros Hm. induction deps as [|d r IH]; intros Hd seen a kk1 kk2 Hsc Hk; simpl; [apply Hk|].
      assert (Hr : forall x, x ∈ r -> edge tasks1 m x) by (intros x Hx; apply Hd; right; exact Hx).
      destruct (decide (d ∈ seen)); [apply IH; assumption|]. apply al_vis. intros s _.
      assert (H2 : alike (and_then (rt1 d a) (RPreDep d) (pre_deps rt1 r ({[d]} ∪ seen) a kk1)) (and_then (rt2 d a) (RPreDep d) (pre_deps rt2 r ({[d]} ∪ seen) a kk2))).
      { apply alike_then; [|apply IH; assumption]. apply Hrt; [|exact Hsc]. right. exists m. split; [exact Hm|]. apply Hd. left. }
      destruct s; [exact H2|exact H2|apply IH; assumption].
    Qed.

    Lemma alike_pre_resolve items : (forall r, RTask r ∈ items -> edge tasks1 T (r_task r)) -> forall seen a, callers (a_scope a) = T :: callers sc0 ->
      alike (pre_resolve tasks1 rt1 items seen a) (pre_resolve tasks2 rt2 items seen a).
    Proof.
      induction items as [|it rest IH]; intros He seen a Hsc; simpl; [apply alike_refl|].
      assert (Hr : forall r, RTask r ∈ rest -> edge tasks1 T (r_task r)) by (intros r Hr; apply He; right; exact Hr).
      destruct it as [c|r|lg|p|o its]; try (apply IH; assumption).
      assert (Her : edge tasks1 T (r_task r)) by (apply He; left).
      rewrite <- (below_same (r_task r)) by (eapply below_edge; eassumption).
      destruct (tasks1 !! r_task r) as [t'|] eqn:Et; [|apply alike_refl].
      apply (alike_pre_deps (t_deps t') (r_task r)); [exact Her| |exact Hsc|intros s; apply IH; assumption].
      intros d Hd. exists t'. auto.
    Qed.

    Lemma alike_fork o items pa l env c sub kk1 kk2 : (forall r, RTask r ∈ items -> edge tasks1 T (r_task r)) -> (forall j, callers (a_scope (sub j)) = callers sc0) ->
      (forall log, alike (kk1 log) (kk2 log)) ->
      alike (fork k rt1 o items t pa l env c sub kk1) (fork k rt2 o items t pa l env c sub kk2).
    Proof.
      intros He Hsc Hk. unfold fork. apply al_fork; [| |exact Hk].
      - apply list_eq. intros j. rewrite !list_lookup_fmap, !list_lookup_imap. destruct (items !! j); reflexivity.
      - intros j s1 s2 p1 p2 H1 H2. rewrite list_lookup_imap in H1, H2. destruct (items !! j) as [it|] eqn:Ej; [|discriminate H1].
        injection H1 as <- <-. injection H2 as <- <-. apply alike_run_item; [|apply Hsc].
        intros r ->. apply He. eapply elem_of_list_lookup_2. exact Ej.
    Qed.

    Lemma alike_parallel o items pa l env a : (forall r, RTask r ∈ items -> edge tasks1 T (r_task r)) -> callers (a_scope a) = callers sc0 ->
      alike (execute_parallel k tasks1 rt1 o items t pa l env a) (execute_parallel k tasks2 rt2 o items t pa l env a).
    Proof.
      intros He Hsc. unfold execute_parallel. apply alike_then.
      - apply alike_pre_resolve; [exact He|]. cbn. rewrite Hname, Hsc. reflexivity.
      - destruct (k_dry k); [apply alike_refl|]. destruct (is_tui_mode (q_mode o) && k_terminal k && (negb (a_piped a) || a_in_tui a)).
        + unfold execute_tui. cbn. destruct (a_tui a).
          * apply alike_fork; [exact He|intros j; exact Hsc|intros log; apply alike_refl].
          * vis. apply al_vis. intros [|] _; [|apply alike_refl]. apply alike_fork; [exact He|intros j; exact Hsc|intros log; apply alike_refl].
        + unfold execute_interleaved. apply alike_fork; [exact He|intros j; exact Hsc|intros log; apply alike_refl].
    Qed.

    Lemma alike_item it i l env a : t_run t !! i = Some it -> callers (a_scope a) = callers sc0 ->
      alike (execute_item k tasks1 rt1 it t i l env a) (execute_item k tasks2 rt2 it t i l env a).
    Proof.
      intros Hi Hsc. destruct it as [c|r|lg|p|o items].
      - apply alike_refl.
      - apply alike_run_item; [|exact Hsc]. intros r' [= <-]. exists t. split; [exact Ht|]. right. eapply P_Run_Parse.refers_in. exact Hi.
      - apply alike_refl.
      - apply alike_refl.
      - unfold execute_item. destruct (k_dry k); [apply alike_refl|]. vis. vis. apply alike_parallel; [|exact Hsc].
        intros r1 Hr. exists t. split; [exact Ht|]. right. eapply P_Run_Parse.refers_block; [exact Hi|].
        apply elem_of_list_lookup in Hr as [j Hj]. eapply P_Run_Parse.refers_in. exact Hj.
    Qed.

    Lemma alike_items l env a : callers (a_scope a) = callers sc0 -> forall items i e s, t_run t = take i (t_run t) ++ items -> length (take i (t_run t)) = i ->
      alike (execute_items k tasks1 rt1 items t i e s l env a) (execute_items k tasks2 rt2 items t i e s l env a).
    Proof.
      intros Hsc. induction items as [|it rest IH]; intros i e s Hr Hl; simpl; [apply alike_refl|].
      assert (Hi : t_run t !! i = Some it) by (rewrite Hr, lookup_app_r, Hl, Nat.sub_diag by lia; reflexivity).
      assert (Hr' : t_run t = take (S i) (t_run t) ++ rest).
      { rewrite (take_S_r _ _ _ Hi), <- app_assoc. exact Hr. }
      assert (Hl' : length (take (S i) (t_run t)) = S i) by (rewrite (take_S_r _ _ _ Hi), app_length, Hl; cbn; lia).
      apply al_vis. intros [|] _; [apply alike_refl|].
      destruct (negb (matches_platform (item_platforms it) (k_os k))); [vis; apply IH; assumption|].
      assert (Hgo : alike (bind (execute_item k tasks1 rt1 it t i l env a) (fun r => Vis (ERet (t_name t) [i] r) (fun _ => match r with Some e => Ret (Some e) | None => execute_items k tasks1 rt1 rest t (S i) (S e) s l env a end)))
                          (bind (execute_item k tasks2 rt2 it t i l env a) (fun r => Vis (ERet (t_name t) [i] r) (fun _ => match r with Some e => Ret (Some e) | None => execute_items k tasks2 rt2 rest t (S i) (S e) s l env a end)))).
      { apply alike_bind; [apply alike_item; assumption|]. intros [er|]; vis; [apply alike_refl|apply IH; assumption]. }
      destruct (item_when it) as [|b w]; [exact Hgo|]. apply al_vis. intros vars _.
      destruct (evaluate (k_getenv k) vars (b :: w)) as [[|]|]; [exact Hgo|vis; apply IH; assumption|apply alike_refl].
    Qed.

    Lemma alike_task a : callers (a_scope a) = callers sc0 -> alike (execute_task k tasks1 rt1 t a) (execute_task k tasks2 rt2 t a).
    Proof.
      intros Hsc. unfold execute_task.
      assert (Hw : forall l vars, alike (interpolate_env_then k (t_line t) vars (smap_get (merge_maps (k_env k) (t_env t))) (fun env => execute_items k tasks1 rt1 (t_run t) t 0 0 0 l env a))
                                       (interpolate_env_then k (t_line t) vars (smap_get (merge_maps (k_env k) (t_env t))) (fun env => execute_items k tasks2 rt2 (t_run t) t 0 0 0 l env a))).
      { intros l vars. unfold interpolate_env_then.
        assert (Hit : forall env, alike (execute_items k tasks1 rt1 (t_run t) t 0 0 0 l env a) (execute_items k tasks2 rt2 (t_run t) t 0 0 0 l env a)) by (intros env; apply alike_items; [exact Hsc|reflexivity|reflexivity]).
        destruct (decide _); [apply Hit|]. apply al_vis. intros order _. destruct (interpolate_env (k_getenv k) vars _ order); [apply Hit|apply alike_refl]. }
      destruct (t_vars t) as [vs|]; [|apply al_vis; intros vars _; apply Hw].
      apply al_vis. intros order _. apply al_vis. intros globals _.
      destruct (resolve_vars (k_getenv k) (Some vs) (Some globals) order); [|apply alike_refl]. apply al_vis. intros l _. apply Hw.
    Qed.

    Lemma alike_deps a kk1 kk2 : callers (a_scope a) = callers sc0 -> alike kk1 kk2 -> forall deps, (forall d, d ∈ deps -> edge tasks1 T d) ->
      alike (run_deps rt1 T deps a kk1) (run_deps rt2 T deps a kk2).
    Proof.
      intros Hsc Hk. induction deps as [|d r IH]; intros Hd; simpl; [exact Hk|]. apply alike_then.
      - apply Hrt; [left; apply Hd; left|]. cbn. rewrite Hsc. reflexivity.
      - apply IH. intros x Hx. apply Hd. right. exact Hx.
    Qed.
  End Calls.

  Lemma alike_run_task f1 : forall f2 n a, below n ->
    S f1 + length (callers (a_scope a)) = 2 + size tasks1 -> S f2 + length (callers (a_scope a)) = 2 + size tasks2 ->
    alike (run_task k tasks1 (S f1) n a) (run_task k tasks2 (S f2) n a).
  Proof.
    induction f1 as [f1 IH] using lt_wf_ind. intros f2 n a Hn H1 H2.
    cbn [run_task]. apply al_vis. intros s Hseen. destruct s; [|vis|apply alike_refl].
    2:{ unfold build_chain_slice. rewrite (same_build_chain tasks1 tasks2 (2 + size tasks1) (2 + size tasks2)); [apply alike_refl|apply below_from; exact Hn| |].
        - rewrite difference_empty_L, <- (size_dom (D := gset str) tasks1). assert (size both <= size (dom tasks1 : gset str)) by (apply subseteq_size; apply intersection_subseteq_l). lia.
        - rewrite difference_empty_L, <- (size_dom (D := gset str) tasks2). assert (size both <= size (dom tasks2 : gset str)) by (apply subseteq_size; apply intersection_subseteq_r). lia. }
    rewrite <- (below_same n Hn). destruct (tasks1 !! n) as [t|] eqn:Et; [|apply alike_refl].
    pose proof (Hkeyed n t Et) as Hname.
    pose proof (fits n (a_scope a) Hseen ltac:(rewrite Et; eauto)) as Hfit.
    assert (size both <= size tasks1) by (rewrite <- (size_dom (D := gset str) tasks1); apply subseteq_size; apply intersection_subseteq_l).
    assert (size both <= size tasks2) by (rewrite <- (size_dom (D := gset str) tasks2); apply subseteq_size; apply intersection_subseteq_r).
    destruct f1 as [|f1]; [lia|]. destruct f2 as [|f2]; [lia|].
    assert (Hrt : forall m b, edge tasks1 n m \/ (exists x, edge tasks1 n x /\ edge tasks1 x m) -> callers (a_scope b) = n :: callers (a_scope a) ->
              alike (run_task k tasks1 (S f1) m b) (run_task k tasks2 (S f2) m b)).
    { intros m b Hm Hb. apply IH; [lia| |rewrite Hb; cbn; lia|rewrite Hb; cbn; lia].
      destruct Hm as [Hm|(x & Hx & Hm)]; [eapply below_edge; eassumption|]. eapply below_edge; [eapply below_edge; [exact Hn|exact Hx]|exact Hm]. }
    assert (Hrest : alike
      (run_deps (run_task k tasks1 (S f1)) n (t_deps t) a (match t_run t with [] => Vis (EDone n) (fun _ => Ret None) | _ => and_then (execute_task k tasks1 (run_task k tasks1 (S f1)) t a) id (Vis (EDone n) (fun _ => Ret None)) end))
      (run_deps (run_task k tasks2 (S f2)) n (t_deps t) a (match t_run t with [] => Vis (EDone n) (fun _ => Ret None) | _ => and_then (execute_task k tasks2 (run_task k tasks2 (S f2)) t a) id (Vis (EDone n) (fun _ => Ret None)) end))).
    { apply (alike_deps _ _ n (a_scope a) Hrt); [reflexivity| |intros d Hd; exists t; auto].
      pose proof (alike_task _ _ n t (a_scope a) Et Hn Hname Hrt a eq_refl) as Hx.
      destruct (t_run t); [apply alike_refl|]. apply alike_then; [exact Hx|apply alike_refl]. }
    assert (Hbody : alike
      (if negb (k_dry k) && negb (is_silent [a_silent a; t_silent t; k_silent k]) then Vis (EHeader n (a_main a) (a_out a)) (fun _ => run_deps (run_task k tasks1 (S f1)) n (t_deps t) a (match t_run t with [] => Vis (EDone n) (fun _ => Ret None) | _ => and_then (execute_task k tasks1 (run_task k tasks1 (S f1)) t a) id (Vis (EDone n) (fun _ => Ret None)) end))
       else run_deps (run_task k tasks1 (S f1)) n (t_deps t) a (match t_run t with [] => Vis (EDone n) (fun _ => Ret None) | _ => and_then (execute_task k tasks1 (run_task k tasks1 (S f1)) t a) id (Vis (EDone n) (fun _ => Ret None)) end))
      (if negb (k_dry k) && negb (is_silent [a_silent a; t_silent t; k_silent k]) then Vis (EHeader n (a_main a) (a_out a)) (fun _ => run_deps (run_task k tasks2 (S f2)) n (t_deps t) a (match t_run t with [] => Vis (EDone n) (fun _ => Ret None) | _ => and_then (execute_task k tasks2 (run_task k tasks2 (S f2)) t a) id (Vis (EDone n) (fun _ => Ret None)) end))
       else run_deps (run_task k tasks2 (S f2)) n (t_deps t) a (match t_run t with [] => Vis (EDone n) (fun _ => Ret None) | _ => and_then (execute_task k tasks2 (run_task k tasks2 (S f2)) t a) id (Vis (EDone n) (fun _ => Ret None)) end))).
    { destruct (negb (k_dry k) && _); [apply al_vis; intros u _; exact Hrest|exact Hrest]. }
    destruct (t_when t) as [|b w]; [exact Hbody|]. apply al_vis. intros globals _.
    destruct (evaluate (k_getenv k) globals (b :: w)) as [[|]|]; [exact Hbody|apply alike_refl|apply alike_refl].
  Qed.

  Lemma same_runs h p1 : run_of k tasks1 root h p1 -> exists p2, run_of k tasks2 root h p2 /\ alike p1 p2.
  Proof.
    unfold run_of. intros Hrun.
    enough (G : forall s, rtc (cstep (k_vars k)) ([], run_with_tasks k tasks1 root) s ->
              exists p2, rtc (cstep (k_vars k)) ([], run_with_tasks k tasks2 root) (s.1, p2) /\ alike s.2 p2) by exact (G _ Hrun).
    clear h p1 Hrun.
    enough (G : forall s, rtc (cstep (k_vars k)) ([], run_with_tasks k tasks1 root) s ->
              rtc (cstep (k_vars k)) ([], run_with_tasks k tasks1 root) s /\ exists p2, rtc (cstep (k_vars k)) ([], run_with_tasks k tasks2 root) (s.1, p2) /\ alike s.2 p2) by (intros s Hs; apply G; exact Hs).
    apply (rtc_ind_r (fun s => rtc (cstep (k_vars k)) ([], run_with_tasks k tasks1 root) s /\ exists p2, rtc (cstep (k_vars k)) ([], run_with_tasks k tasks2 root) (s.1, p2) /\ alike s.2 p2)).
    - split; [reflexivity|]. exists (run_with_tasks k tasks2 root). split; [reflexivity|]. apply alike_run_task; [reflexivity|cbn; lia|cbn; lia].
    - intros [h p] [h1 p1] Hrun Hstep (_ & p2 & Hrun2 & Ha). cbn [fst snd] in *.
      assert (Hrun1 : rtc (cstep (k_vars k)) ([], run_with_tasks k tasks1 root) (h1, p1)) by (eapply rtc_r; eassumption).
      split; [exact Hrun1|]. inversion Hstep; subst.
      + match goal with Hp : pstep p ?ev p1 |- _ => destruct (alike_step _ p p2 ev p1 Ha Hp) as (p2' & Hp2 & Ha2); [exists (ev :: h), p1; split; [exact Hrun1|left]|] end.
        exists p2'. split; [|exact Ha2]. eapply rtc_r; [exact Hrun2|]. apply cs_prog; assumption.
      + exists p2. split; [|exact Ha]. eapply rtc_r; [exact Hrun2|apply cs_cancel].
  Qed.
  Lemma same_results h r : run_of k tasks1 root h (Ret r) -> run_of k tasks2 root h (Ret r).
  Proof. intros H. destruct (same_runs h (Ret r) H) as (p2 & H2 & Ha). inversion Ha. subst. exact H2. Qed.
End Same.

Lemma same_below tasks1 tasks2 n m : same_from tasks1 tasks2 n -> rtc (edge tasks2) n m -> rtc (edge tasks1) n m.
Proof.
  intros Hs H. remember n as n0 eqn:E in H |- *. assert (Hn : rtc (edge tasks1) n n0) by (subst; reflexivity). clear E.
  induction H as [x|x y z (t & Ht & Hy) Hz IH]; [reflexivity|].
  assert (He : edge tasks1 x y) by (exists t; split; [rewrite (Hs x Hn); exact Ht|exact Hy]).
  eapply rtc_l; [exact He|]. apply IH. eapply rtc_r; eassumption.
Qed.
Lemma same_from_sym tasks1 tasks2 n : same_from tasks1 tasks2 n -> same_from tasks2 tasks1 n.
Proof. intros Hs m Hm. symmetry. apply Hs. eapply same_below; eassumption. Qed.
