(** C95: a dependency that an earlier one brings anyway can be listed or left out. *)
From Verif Require Import Base Types_Model Interp_Model Cond_Model Run_Model Run_Spec Run_Logic Run_Inv Run_Proof Run_Facts P_Run Implied_Spec Implied_Proof.

(** Whatever a run does with one of the task maps a run with the other can do too, so far and
    to the end: the same claims, questions, commands, lines and results in the same order. Only
    the looks at tasks that are found done are not compared, and the circle that a report of
    circular dependencies shows. *)
Theorem C95_changes_nothing k tasks1 tasks2 root : keyed tasks1 -> widened_tasks tasks1 tasks2 ->
  (forall h p, run_of k tasks1 root h p -> exists h' p', run_of k tasks2 root h' p' /\ effects h = effects h') /\
  (forall h' p', run_of k tasks2 root h' p' -> exists h p, run_of k tasks1 root h p /\ effects h = effects h') /\
  (forall h r, run_of k tasks1 root h (Ret r) -> exists h' r', run_of k tasks2 root h' (Ret r') /\ effects h = effects h' /\ plain r = plain r') /\
  (forall h' r', run_of k tasks2 root h' (Ret r') -> exists h r, run_of k tasks1 root h (Ret r) /\ effects h = effects h' /\ plain r = plain r').
Proof.
  intros Hk Hw. split; [|split; [|split]].
  - intros h p. apply widened_runs; assumption.
  - intros h p. apply narrowed_runs; assumption.
  - intros h r. apply widened_ends; assumption.
  - intros h r. apply narrowed_ends; assumption.
Qed.
Print Assumptions C95_changes_nothing.

Lemma widened_refl tasks before l : widened tasks before l l.
Proof. revert before. induction l as [|d l IH]; intros before; constructor. apply IH. Qed.
Lemma widened_insert tasks before pre post b d : b ∈ pre \/ b ∈ before -> brings tasks b d -> widened tasks before (pre ++ post) (pre ++ d :: post).
Proof.
  intros Hb Hbr. revert before Hb. induction pre as [|c pre IH]; intros before Hb.
  - destruct Hb as [Hb|Hb]; [inversion Hb|]. cbn. eapply wi_extra; [exact Hb|exact Hbr|apply widened_refl].
  - cbn. constructor. apply IH. destruct Hb as [Hb|Hb]; [|right; right; exact Hb]. apply elem_of_cons in Hb as [->|Hb]; [right; left|left; exact Hb].
Qed.
Lemma with_deps_self t : with_deps t (t_deps t) = t.
Proof. destruct t. reflexivity. Qed.
Lemma one_more tasks n t pre post b d : tasks !! n = Some t -> t_deps t = pre ++ post -> b ∈ pre -> brings tasks b d ->
  widened_tasks tasks (<[n := with_deps t (pre ++ d :: post)]> tasks).
Proof.
  intros Ht Hd Hb Hbr m. destruct (decide (n = m)) as [<-|Hne].
  - rewrite Ht. exists (pre ++ d :: post). split; [apply lookup_insert|]. rewrite Hd. eapply widened_insert; [left; exact Hb|exact Hbr].
  - rewrite lookup_insert_ne by exact Hne. destruct (tasks !! m) as [t'|]; [|reflexivity]. exists (t_deps t'). split; [rewrite with_deps_self; reflexivity|apply widened_refl].
Qed.

(** One dependency more, somewhere after one that brings it: the same commands are started, with
    the same text, environment, directory and destination, in the same order, and the run
    succeeds or fails alike. *)
Definition begun (h : hist) : list proc_info := omap (fun ev => match ev with OStart x true => Some x | _ => None end) h.
Lemma begun_effects h : begun h = omap (fun ev => match ev with OStart x true => Some x | _ => None end) (effects h).
Proof.
  unfold begun, effects. induction h as [|ev h IH]; [reflexivity|].
  destruct ev; cbn; rewrite ?IH; try reflexivity; destruct s; cbn; rewrite ?IH; reflexivity.
Qed.
Theorem C95_same_commands k tasks root n t pre post b d : keyed tasks -> tasks !! n = Some t -> t_deps t = pre ++ post -> b ∈ pre -> brings tasks b d ->
  let tasks' := <[n := with_deps t (pre ++ d :: post)]> tasks in
  (forall h r, run_of k tasks root h (Ret r) -> exists h' r', run_of k tasks' root h' (Ret r') /\ begun h = begun h' /\ (r = None <-> r' = None)) /\
  (forall h' r', run_of k tasks' root h' (Ret r') -> exists h r, run_of k tasks root h (Ret r) /\ begun h = begun h' /\ (r = None <-> r' = None)).
Proof.
  intros Hk Ht Hd Hb Hbr tasks'. destruct (C95_changes_nothing k tasks tasks' root Hk (one_more _ _ _ _ _ _ _ Ht Hd Hb Hbr)) as (_ & _ & H3 & H4).
  assert (Hp : forall r r', plain r = plain r' -> r = None <-> r' = None).
  { intros [e|] [e'|] E; try discriminate E; split; intros X; try discriminate X; reflexivity. }
  split.
  - intros h r Hr. destruct (H3 h r Hr) as (h' & r' & H & He & E). exists h', r'. split; [exact H|]. split; [rewrite (begun_effects h), (begun_effects h'), He; reflexivity|apply Hp; exact E].
  - intros h' r' Hr. destruct (H4 h' r' Hr) as (h & r & H & He & E). exists h, r. split; [exact H|]. split; [rewrite (begun_effects h), (begun_effects h'), He; reflexivity|apply Hp; exact E].
Qed.
Print Assumptions C95_same_commands.

(** ** Cases *)
From Verif Require Import Run_Drive P_Dry P_Det.

(** [c] comes with [b], which comes with [a]; listed twice, and after what brings it, also for
    a task that a parallel block names. *)
Definition lean : taskmap := tm [mk "all" None ["a"%string] [par 0 [ref "e"; cmd "z"]]; mk "a" None ["b"%string] [cmd "x"]; mk "b" None ["c"%string] [cmd "y"]; mk "c" None [] [cmd "w"];
  mk "e" None ["f"%string] [cmd "v"]; mk "f" None ["c"%string; "g"%string] [cmd "u"]; mk "g" None [] [cmd "s"]].
Definition rich : taskmap := tm [mk "all" None ["a"%string; "b"%string; "c"%string] [par 0 [ref "e"; cmd "z"]]; mk "a" None ["b"%string; "b"%string; "c"%string] [cmd "x"]; mk "b" None ["c"%string] [cmd "y"]; mk "c" None [] [cmd "w"];
  mk "e" None ["f"%string; "g"%string] [cmd "v"]; mk "f" None ["c"%string; "g"%string] [cmd "u"]; mk "g" None [] [cmd "s"]].
Definition script : list act := [Go [] 90 fine; Do [] (MSlot 0); Do [] (MSlot 1); Go [1] 60 fine; Go [0] 60 fine; Do [] (MReturn 1); Do [] (MFree 1); Do [] (MReturn 0); Do [] (MFree 0); Do [] MJoin; Go [] 60 fine].
Lemma lean_rich : widened_tasks lean rich.
Proof.
  assert (Hb : forall x, x = "b"%string \/ x = "c"%string -> brings lean (lit "b") (lit x)).
  { intros x [-> | ->]; [constructor|]. eapply br_dep; [vm_compute; reflexivity|reflexivity|left|constructor]. }
  assert (Ha : forall x, x = "b"%string \/ x = "c"%string -> brings lean (lit "a") (lit x)).
  { intros x Hx. eapply br_dep; [vm_compute; reflexivity|reflexivity|left|]. apply Hb. exact Hx. }
  intros n. destruct (lean !! n) as [t|] eqn:E.
  - assert (Hn : t_name t = n) by (apply (keyed_by lean); [vm_compute; reflexivity|exact E]). subst n. apply task_in in E.
    repeat (apply elem_of_cons in E as [-> | E]; [eexists; split; [vm_compute; reflexivity|]|]); [..|inversion E]; cbn [t_deps mk map].
    + apply wi_same. eapply wi_extra; [left|apply (Ha "b"%string); left; reflexivity|]. eapply wi_extra; [left|apply (Ha "c"%string); right; reflexivity|]. constructor.
    + apply wi_same. eapply wi_extra; [left|apply (Hb "b"%string); left; reflexivity|]. eapply wi_extra; [left|apply (Hb "c"%string); right; reflexivity|]. constructor.
    + apply widened_refl.
    + apply widened_refl.
    + apply wi_same. eapply wi_extra; [left| |constructor]. eapply br_dep; [vm_compute; reflexivity|reflexivity|right; left|constructor].
    + apply widened_refl.
    + apply widened_refl.
  - destruct (rich !! n) as [t|] eqn:E2; [|reflexivity]. exfalso.
    assert (Hn : t_name t = n) by (apply (keyed_by rich); [vm_compute; reflexivity|exact E2]). subst n. apply task_in in E2.
    repeat (apply elem_of_cons in E2 as [-> | E2]; [vm_compute in E; discriminate E|]). inversion E2.
Qed.
Example C95_met : keyed lean /\ widened_tasks lean rich /\ lean <> rich /\
  run_of (conf false) lean (lit "all") (ran (conf false) lean (lit "all") script).1 (Ret None) /\
  run_of (conf false) rich (lit "all") (ran (conf false) rich (lit "all") script).1 (Ret None) /\
  length (begun (ran (conf false) rich (lit "all") script).1) = 7 /\
  length (ran (conf false) lean (lit "all") script).1 < length (ran (conf false) rich (lit "all") script).1.
Proof.
  split; [apply keyed_by; vm_compute; reflexivity|]. split; [exact lean_rich|]. split.
  { intros E. assert (H : t_deps <$> lean !! lit "all" = t_deps <$> rich !! lit "all") by (rewrite E; reflexivity). vm_compute in H. discriminate H. }
  split; [apply finished; vm_compute; reflexivity|]. split; [apply finished; vm_compute; reflexivity|]. split; [vm_compute; reflexivity|].
  apply Nat.ltb_lt. vm_compute. reflexivity.
Qed.

(** ** What does not hold *)
(** Through a task with a [when] nothing is brought: here [c] runs only because it is listed. *)
Definition if_task (n : string) (w : string) (deps : list string) (run : list run_item) : task :=
  Task (lit n) 1 1 (lit "/w/Babfile.yml") [] [] [] None None None None [] (lit w) (map lit deps) run.
Definition maybe : taskmap := tm [mk "all" None ["b"%string] [cmd "x"]; if_task "b" "false" ["c"%string] [cmd "y"]; mk "c" None [] [cmd "w"]].
Definition surely : taskmap := <[lit "all" := mk "all" None ["b"%string; "c"%string] [cmd "x"]]> maybe.
Lemma claimed_by tasks k root h n sc s : good (k_vars k) (step_ok k tasks root) h -> OClaim n sc s ∈ h -> n <> root ->
  (forall T t it, tasks !! T = Some t -> it ∈ t_run t -> exists c, it = RCmd c) ->
  exists T t pre post sc' h0, suffix h0 h /\ tasks !! T = Some t /\ t_deps t = pre ++ n :: post /\ (forall d, d ∈ pre -> ODone d ∈ h0) /\ task_chosen k h0 t /\ OClaim T sc' Fresh ∈ h0 /\ OClaim n sc s :: h0 `suffix_of` h.
Proof.
  intros Hg Hin Hne Hcmd. destruct (good_in _ _ _ _ Hg Hin) as (h0 & Hs & _ & _ & [_ [Hc Hre]]).
  assert (Hs0 : h0 `suffix_of` h) by (etransitivity; [apply suffix_cons_r; reflexivity|exact Hs]).
  destruct sc as [|[T|T pa r|T pa o|T pa] sc']; cbn in Hc.
  - exfalso. apply Hne. inversion Hre; subst; reflexivity.
  - destruct Hc as (t & pre & post & Ht & Hd & Hp & Hch & Hcl). exists T, t, pre, post, sc', h0. auto 10.
  - exfalso. destruct Hc as (_ & (t & Ht & Hat & _) & _). destruct pa as [|i [|j [|? ?]]]; cbn in Hat; try contradiction Hat.
    + destruct (Hcmd T t _ Ht (elem_of_list_lookup_2 _ _ _ Hat)) as (c & E). discriminate E.
    + destruct Hat as (o & items & Hat & _). destruct (Hcmd T t _ Ht (elem_of_list_lookup_2 _ _ _ Hat)) as (c & E). discriminate E.
  - contradiction Hc.
  - exfalso. destruct Hc as (_ & o & items & r & t' & (t & Ht & Hat & _) & _). destruct pa as [|i [|j [|? ?]]]; cbn in Hat; try contradiction Hat.
    + destruct (Hcmd T t _ Ht (elem_of_list_lookup_2 _ _ _ Hat)) as (c & E). discriminate E.
    + destruct Hat as (o' & items' & Hat & _). destruct (Hcmd T t _ Ht (elem_of_list_lookup_2 _ _ _ Hat)) as (c & E). discriminate E.
Qed.
Theorem C95_when_refuted : exists k tasks root n t pre post b tb d h', keyed tasks /\ tasks !! n = Some t /\ t_deps t = pre ++ post /\ b ∈ pre /\
  tasks !! b = Some tb /\ d ∈ t_deps tb /\ run_of k (<[n := with_deps t (pre ++ d :: post)]> tasks) root h' (Ret None) /\
  (exists x, OStart x true ∈ h' /\ x_task x = d) /\
  forall h p x s, run_of k tasks root h p -> OStart x s ∈ h -> x_task x <> d.
Proof.
  exists (conf false), maybe, (lit "all"), (lit "all"), (mk "all" None ["b"%string] [cmd "x"]), [lit "b"], [], (lit "b"), (if_task "b" "false" ["c"%string] [cmd "y"]), (lit "c"), (ran (conf false) surely (lit "all") [Go [] 100 fine]).1.
  assert (Hkey : keyed maybe) by (apply keyed_by; vm_compute; reflexivity).
  split; [exact Hkey|]. split; [vm_compute; reflexivity|]. split; [reflexivity|]. split; [left|]. split; [vm_compute; reflexivity|]. split; [left|].
  split; [apply finished; vm_compute; reflexivity|]. split.
  - assert (H : existsb (fun ev => match ev with OStart x true => bool_decide (x_task x = lit "c") | _ => false end) (ran (conf false) surely (lit "all") [Go [] 100 fine]).1 = true) by (vm_compute; reflexivity).
    apply existsb_exists in H as (ev & Hin & Hev). destruct ev; try discriminate Hev. destruct started; [|discriminate Hev].
    exists x. split; [apply elem_of_list_In; exact Hin|]. apply bool_decide_eq_true in Hev. exact Hev.
  - intros h p x s Hrun Hin Ex. pose proof (run_good (conf false) maybe (lit "all") Hkey _ _ Hrun) as Hg.
    destruct (good_in _ _ _ _ Hg Hin) as (h0 & Hs & _). pose proof (good_suffix _ _ _ _ Hs Hg) as Hg0.
    destruct (act_claim _ _ _ _ _ _ Hg0 eq_refl) as (sc & Hc). cbn in Hc. rewrite Ex in Hc.
    apply good_tail in Hg0 as (Hg0 & _).
    destruct (claimed_by maybe _ _ _ _ _ _ Hg0 Hc) as (T & t & pre & post & sc' & h1 & _ & Ht & Hd & _ & Hch & _); [discriminate| |].
    { intros T t it Ht Hit. apply task_in in Ht. repeat (apply elem_of_cons in Ht as [-> | Ht]; [apply elem_of_list_singleton in Hit as ->; eexists; reflexivity|]). inversion Ht. }
    apply task_in in Ht. apply elem_of_cons in Ht as [-> | Ht]; [destruct pre as [|? [|? ?]]; vm_compute in Hd; discriminate Hd|].
    apply elem_of_cons in Ht as [-> | Ht].
    + destruct Hch as [E|(globals & _ & E)]; [discriminate E|]. vm_compute in E. discriminate E.
    + apply elem_of_cons in Ht as [-> | Ht]; [destruct pre; vm_compute in Hd; discriminate Hd|inversion Ht].
Qed.
Print Assumptions C95_when_refuted.

(** In front of what brings it the dependency moves work forward: here [c] comes before [a]. *)
Definition calm : taskmap := tm [mk "all" None ["a"%string; "b"%string] [cmd "x"]; mk "a" None [] [cmd "v"]; mk "b" None ["c"%string] [cmd "y"]; mk "c" None [] [cmd "w"]].
Definition eager : taskmap := <[lit "all" := mk "all" None ["c"%string; "a"%string; "b"%string] [cmd "x"]]> calm.
Theorem C95_before_refuted : exists k tasks root n t b d a h', keyed tasks /\ tasks !! n = Some t /\ b ∈ t_deps t /\ brings tasks b d /\
  run_of k (<[n := with_deps t (d :: t_deps t)]> tasks) root h' (Ret None) /\
  (exists x past, happened h' (OStart x true) past /\ x_task x = d /\ ODone a ∉ past) /\
  forall h p x s past, run_of k tasks root h p -> happened h (OStart x s) past -> x_task x = d -> ODone a ∈ past.
Proof.
  exists (conf false), calm, (lit "all"), (lit "all"), (mk "all" None ["a"%string; "b"%string] [cmd "x"]), (lit "b"), (lit "c"), (lit "a"), (ran (conf false) eager (lit "all") [Go [] 100 fine]).1.
  assert (Hkey : keyed calm) by (apply keyed_by; vm_compute; reflexivity).
  split; [exact Hkey|]. split; [vm_compute; reflexivity|]. split; [right; left|]. split; [eapply br_dep; [vm_compute; reflexivity|reflexivity|left|constructor]|].
  split; [apply finished; vm_compute; reflexivity|]. split.
  - assert (H : exists n, match drop n (ran (conf false) eager (lit "all") [Go [] 100 fine]).1 with OStart x true :: past => bool_decide (x_task x = lit "c") && negb (existsb (fun ev => match ev with ODone m => bool_decide (m = lit "a") | _ => false end) past) | _ => false end = true).
    { assert (H : existsb (fun n => match drop n (ran (conf false) eager (lit "all") [Go [] 100 fine]).1 with OStart x true :: past => bool_decide (x_task x = lit "c") && negb (existsb (fun ev => match ev with ODone m => bool_decide (m = lit "a") | _ => false end) past) | _ => false end) (seq 0 60) = true) by (vm_compute; reflexivity).
      apply existsb_exists in H as (n & _ & H). exists n. exact H. }
    destruct H as [n H]. destruct (drop n _) as [|ev past] eqn:E; [discriminate H|]. destruct ev; try discriminate H. destruct started; [|discriminate H].
    apply andb_true_iff in H as [H1 H2]. apply bool_decide_eq_true in H1. exists x, past. split; [|split; [exact H1|]].
    + unfold happened. rewrite <- E. eexists. symmetry. apply take_drop.
    + intros Hin. apply negb_true_iff in H2. rewrite (proj2 (existsb_exists _ _)) in H2; [discriminate H2|]. exists (ODone (lit "a")). split; [apply elem_of_list_In; exact Hin|apply bool_decide_eq_true; reflexivity].
  - intros h p x s past Hrun Hs Ex. pose proof (run_good (conf false) calm (lit "all") Hkey _ _ Hrun) as Hg.
    pose proof (good_suffix _ _ _ _ Hs Hg) as Hg0. destruct (act_claim _ _ _ _ _ _ Hg0 eq_refl) as (sc & Hc). cbn in Hc. rewrite Ex in Hc.
    apply good_tail in Hg0 as (Hg0 & _).
    assert (Hcmds : forall T t it, calm !! T = Some t -> it ∈ t_run t -> exists c, it = RCmd c).
    { intros T t it Ht Hit. apply task_in in Ht. repeat (apply elem_of_cons in Ht as [-> | Ht]; [apply elem_of_list_singleton in Hit as ->; eexists; reflexivity|]). inversion Ht. }
    destruct (claimed_by calm _ _ _ _ _ _ Hg0 Hc) as (T & t & pre & post & sc' & h1 & Hs1 & Ht & Hd & _ & _ & Hcl & _); [discriminate|exact Hcmds|].
    pose proof (Hkey T t Ht) as Hn. assert (T = lit "b") as ->.
    { apply task_in in Ht. apply elem_of_cons in Ht as [-> | Ht]; [destruct pre as [|? [|? [|? ?]]]; vm_compute in Hd; discriminate Hd|].
      apply elem_of_cons in Ht as [-> | Ht]; [destruct pre; vm_compute in Hd; discriminate Hd|]. apply elem_of_cons in Ht as [-> | Ht]; [symmetry; exact Hn|].
      apply elem_of_cons in Ht as [-> | Ht]; [destruct pre; vm_compute in Hd; discriminate Hd|inversion Ht]. }
    pose proof (good_suffix _ _ _ _ Hs1 Hg0) as Hg1.
    destruct (claimed_by calm _ _ _ _ _ _ Hg1 Hcl) as (T' & t' & pre' & post' & sc'' & h2 & Hs2 & Ht' & Hd' & Hp' & _); [discriminate|exact Hcmds|].
    apply task_in in Ht'. eapply suffix_elem; [exact Hs1|]. eapply suffix_elem; [exact Hs2|]. apply Hp'.
    apply elem_of_cons in Ht' as [-> | Ht']; [destruct pre' as [|? [|? [|? ?]]]; vm_compute in Hd'; try discriminate Hd'; injection Hd' as <-; left|].
    apply elem_of_cons in Ht' as [-> | Ht']; [destruct pre'; vm_compute in Hd'; discriminate Hd'|]. apply elem_of_cons in Ht' as [-> | Ht']; [destruct pre' as [|? [|? ?]]; vm_compute in Hd'; discriminate Hd'|].
    apply elem_of_cons in Ht' as [-> | Ht']; [destruct pre'; vm_compute in Hd'; discriminate Hd'|inversion Ht'].
Qed.
Print Assumptions C95_before_refuted.
