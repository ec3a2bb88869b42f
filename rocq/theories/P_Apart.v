(** C29 for blocks with task references: items that lead to different tasks never make the
    runner report a cycle that is not there. *)
From Verif Require Import Base Interp_Model Cond_Model Types_Model Path_Model Valid_Spec Run_Model Run_Logic Run_Spec Run_Inv Run_Proof Run_Seq Run_Drive P_Run P_Dry P_Same.
From Verif Require Run_Apart.
Import Run_Apart (apart, leads).

Lemma lone_apart tasks : lone tasks -> apart tasks.
Proof. intros H T t i o items j1 j2 r1 r2 m Ht Hi Hj1 _ _ _ _. eapply H; [exact Ht|exact Hi|]. eapply elem_of_list_lookup_2. exact Hj1. Qed.

Section Theorems.
  Context (k : config) (tasks : taskmap) (root : str) (Hkeyed : keyed tasks).
  Notation run_of := (run_of k tasks root).

  (** The items of a block may need the same tasks (those are complete before the block
      begins); what their run lists lead to must be different. *)
  Theorem C29_independent_items_partial h e c : apart tasks -> run_of h (Ret (Some e)) -> reason e = RCircular c -> cyclic tasks.
  Proof.
    intros Ha Hr E. destruct (run_sound k tasks root Hkeyed h _ Hr) as [_ HQ]. specialize (HQ _ eq_refl). simpl in HQ. unfold err_ok in HQ. rewrite E in HQ.
    destruct HQ as (n & sc & Hin). exists n. eapply (Run_Apart.apart_claims k tasks Ha); [exact Hr|exact Hin].
  Qed.
  (** Whatever the outcome of the run, no goroutine ever meets a task that is running. *)
  Theorem C29_independent_items_never_meet_partial h p n sc : apart tasks -> ~ cyclic tasks -> run_of h p -> OClaim n sc Active ∉ h.
  Proof. intros Ha Hc Hr Hin. apply Hc. exists n. eapply (Run_Apart.apart_claims k tasks Ha); [exact Hr|exact Hin]. Qed.
End Theorems.
Print Assumptions C29_independent_items_partial. Print Assumptions C29_independent_items_never_meet_partial.

(** ** Cases *)
(** [many] (P_Same): two tasks of one block need [lib]. *)
Lemma refers_one items n : refers items n -> (exists r, RTask r ∈ items /\ n = r_task r) \/ exists o sub, RPar o sub ∈ items /\ refers sub n.
Proof.
  induction 1 as [r rest|o sub rest n H IH|it rest n H IH].
  - left. exists r. split; [left|reflexivity].
  - right. exists o, sub. split; [left|exact H].
  - destruct IH as [(r & Hr & E)|(o & sub & Ho & E)]; [left; exists r|right; exists o, sub]; (split; [right; assumption|assumption]).
Qed.
(** A task whose run list names no task leads to itself only. *)
Definition plain_items (items : list run_item) : bool := forallb (fun it => match it with RTask _ | RPar _ _ => false | _ => true end) items.
Lemma leads_plain tasks n t m : tasks !! n = Some t -> plain_items (t_run t) = true -> leads tasks n m -> m = n.
Proof.
  intros Ht Hp [H|(t' & x & Ht' & Hx & _)]; [exact H|exfalso]. rewrite Ht in Ht'. injection Ht' as <-. unfold plain_items in Hp. rewrite forallb_forall in Hp.
  apply refers_one in Hx as [(r & Hr & _)|(o & sub & Hr & _)]; apply elem_of_list_In in Hr; specialize (Hp _ Hr); discriminate Hp.
Qed.
Definition named (items : list run_item) : list str := omap (fun it => match it with RTask r => Some (r_task r) | _ => None end) items.
Definition block_simple (tasks : taskmap) (items : list run_item) : bool :=
  bool_decide (NoDup (named items)) && forallb (fun n => match tasks !! n with Some t => plain_items (t_run t) | None => false end) (named items).
Lemma named_lookup items j1 j2 r1 r2 : NoDup (named items) -> items !! j1 = Some (RTask r1) -> items !! j2 = Some (RTask r2) -> r_task r1 = r_task r2 -> j1 = j2.
Proof.
  revert j1 j2. induction items as [|it items IH]; intros j1 j2 Hn H1 H2 E; [discriminate H1|].
  assert (Hin : forall j r, items !! j = Some (RTask r) -> r_task r ∈ named items).
  { intros j r Hj. apply elem_of_list_omap. eexists. split; [eapply elem_of_list_lookup_2; exact Hj|reflexivity]. }
  destruct j1 as [|j1], j2 as [|j2]; [reflexivity| | |]; simpl in H1, H2.
  - injection H1 as ->. simpl in Hn. apply NoDup_cons in Hn as [Hn _]. exfalso. apply Hn. rewrite E. eapply Hin. exact H2.
  - injection H2 as ->. simpl in Hn. apply NoDup_cons in Hn as [Hn _]. exfalso. apply Hn. rewrite <- E. eapply Hin. exact H1.
  - f_equal. eapply IH; eauto. destruct it; try exact Hn. simpl in Hn. apply NoDup_cons in Hn as [_ Hn]. exact Hn.
Qed.
Lemma apart_by l : forallb (fun t => forallb (fun it => match it with RPar _ items => block_simple (tm l) items | _ => true end) (t_run t)) l = true -> apart (tm l).
Proof.
  intros H T t i o items j1 j2 r1 r2 m Ht Hi H1 H2 Hne L1 L2. rewrite forallb_forall in H.
  apply elem_of_list_to_map_2 in Ht. apply elem_of_list_fmap in Ht as (t' & E & Ht). injection E as -> ->. apply elem_of_list_In in Ht. specialize (H _ Ht).
  rewrite forallb_forall in H. specialize (H (RPar o items)). unfold block_simple in H. rewrite andb_true_iff in H.
  destruct H as [Hn Hp]; [apply elem_of_list_In; eapply elem_of_list_lookup_2; exact Hi|]. apply bool_decide_eq_true in Hn. rewrite forallb_forall in Hp.
  assert (Hl : forall j r, items !! j = Some (RTask r) -> leads (tm l) (r_task r) m -> m = r_task r).
  { intros j r Hj L. specialize (Hp (r_task r)). assert (Hin : In (r_task r) (named items)).
    { apply elem_of_list_In. apply elem_of_list_omap. eexists. split; [eapply elem_of_list_lookup_2; exact Hj|reflexivity]. }
    specialize (Hp Hin). destruct (tm l !! r_task r) as [t2|] eqn:Et; [|discriminate Hp]. eapply leads_plain; [exact Et|exact Hp|exact L]. }
  apply Hne. eapply named_lookup; [exact Hn|exact H1|exact H2|]. rewrite <- (Hl _ _ H1 L1), <- (Hl _ _ H2 L2). reflexivity.
Qed.
Example C29_independent_met : apart many /\ ~ lone many /\ run_of (conf false) many (lit "all") forwards.1 (Ret None) /\
  (* both tasks come to [lib] again, and find it complete *)
  length (List.filter (fun ev => match ev with OClaim n _ Done => bool_decide (n = lit "lib") | _ => false end) forwards.1) = 2.
Proof.
  split; [apply apart_by; vm_compute; reflexivity|]. split; [|split; [apply finished; vm_compute; reflexivity|vm_compute; reflexivity]].
  intros H. refine (H (lit "all") (mk "all" None ["prep"%string] [par 0 [ref "a"; ref "b"; cmd "z"]]) 0 _ [ref "a"; ref "b"; cmd "z"] (TaskRun 1 (lit "a") None None [] []) _ eq_refl _); [vm_compute; reflexivity|left].
Qed.
(** A cycle through a block is reported, and it is one. *)
Definition ring : taskmap := tm [mk "all" None [] [par 0 [ref "a"; cmd "z"]]; mk "a" None [] [cmd "y"; ref "all"]].
Definition ringing := ran (conf false) ring (lit "all")
  [Go [] 60 fine; Do [] (MSlot 0); Do [] (MSlot 1); Go [0] 60 fine; Do [] (MReturn 0); Do [] (MFree 0); Go [1] 60 fine; Do [] (MReturn 1); Do [] (MFree 1); Do [] MJoin; Go [] 60 fine].
Example C29_ring_met : keyed ring /\ apart ring /\ run_of (conf false) ring (lit "all") ringing.1 (Ret (Some (RItem 0 (RCircular [lit "all"])))).
Proof.
  split; [apply keyed_by; vm_compute; reflexivity|]. split; [|apply finished; vm_compute; reflexivity].
  intros T t i o items j1 j2 r1 r2 m Ht Hi H1 H2 Hne _ _. apply elem_of_list_to_map_2 in Ht.
  apply elem_of_cons in Ht as [Ht|Ht]; [|apply elem_of_cons in Ht as [Ht|Ht]; [|inversion Ht]]; injection Ht as -> ->.
  - destruct i as [|[|i]]; try discriminate Hi. injection Hi as <- <-. destruct j1 as [|[|j1]], j2 as [|[|j2]]; try discriminate; congruence.
  - destruct i as [|[|i]]; discriminate Hi.
Qed.
(** The condition is needed: [shared_tasks] (C29_refuted) does not meet it. *)
Example C29_shared_not_apart : ~ apart shared_tasks.
Proof.
  intros H. refine (H (lit "all") (mk "all" None [] [par 0 [ref "a"; ref "b"]]) 0 _ [ref "a"; ref "b"] 0 1 (TaskRun 1 (lit "a") None None [] []) (TaskRun 1 (lit "b") None None [] []) (lit "a") _ eq_refl eq_refl eq_refl _ _ _).
  - vm_compute; reflexivity.
  - discriminate.
  - left. reflexivity.
  - right. exists (mk "b" None [] [ref "a"]), (lit "a"). split; [vm_compute; reflexivity|]. split; [|apply rtc_refl]. apply (refers_here (TaskRun 1 (lit "a") None None [] [])).
Qed.
