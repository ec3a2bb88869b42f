(** C82: a line of output tells the item of a parallel block it comes from. C83: the summary
    of a block is true. C84: what bab itself writes to standard output. *)
From Verif Require Import Base Interp_Model Cond_Model Types_Model Path_Model Run_Model Run_Logic Run_Spec Run_Inv Run_Proof Run_Facts Run_Drive P_Run P_Run_Cmd.
From Verif Require Import Label_Model Dest_Spec Dest_Proof.
Notation outcome := (option rerr).

Local Instance wframe_eq : EqDecision wframe.
Proof. solve_decision. Defined.

Lemma addressed_nil tasks u d l : addressed tasks u d l -> (d = [] <-> l = []).
Proof. destruct 1; split; intros; try reflexivity; try discriminate. contradiction. Qed.

Lemma addressed_key tasks u path l : addressed tasks u [WKey path] l -> path = rev l.*2.
Proof. intros H. remember [WKey path] as d eqn:E. destruct H; congruence. Qed.

Lemma addressed_item tasks u d T t i j1 j2 o items l1 l2 : addressed tasks u d ((T, i, j1) :: l1) -> addressed tasks u d ((T, i, j2) :: l2) ->
  tasks !! T = Some t -> t_run t !! i = Some (RPar o items) -> NoDup (block_labels o items) -> j1 = j2 \/ exists path, d = [WKey path].
Proof.
  intros A1 A2 Ht Hi Hn. remember ((T, i, j1) :: l1) as m1 eqn:E1. destruct A1 as [|T1 t1 i1 j1' o1 it1 d1 k1 Ht1 Hi1 Hj1 A1|k1 N1 U1]; [discriminate| |right; eauto]. left.
  injection E1 as -> -> -> ->. remember (WPrefix (item_label o1 it1 j1) (max_label (block_labels o1 it1)) :: d1) as d eqn:Ed. remember ((T, i, j2) :: l2) as m2 eqn:E2.
  destruct A2 as [|T2 t2 i2 j2' o2 it2 d2 k2 Ht2 Hi2 Hj2 A2|k2 N2 U2]; [discriminate| |discriminate]. injection E2 as -> -> -> ->.
  rewrite Ht in Ht1, Ht2. injection Ht1 as <-. injection Ht2 as <-. rewrite Hi in Hi1, Hi2. injection Hi1 as <- <-. injection Hi2 as <- <-.
  injection Ed as El. rewrite NoDup_alt in Hn.
  destruct (lookup_lt_is_Some_2 items j1 Hj1) as [a1 B1]. destruct (lookup_lt_is_Some_2 items j2 Hj2) as [a2 B2].
  apply (Hn j1 j2 (item_label o items j1)); unfold block_labels; rewrite list_lookup_imap; [rewrite B1|rewrite B2]; cbn; congruence.
Qed.

Section Theorems.
  Context (k : config) (tasks : taskmap) (root : str) (Hkeyed : keyed tasks).
  Notation run_of := (run_of k tasks root).
  Notation good := (good (k_vars k) (step_ok k tasks root)).

  (** The scope a claim was made from is the one way the task was reached. *)
  Definition reached_by (h : hist) (T : str) (s : scope) : Prop :=
    OClaim T s Fresh ∈ h /\ reached tasks root T s /\ forall s', OClaim T s' Fresh ∈ h -> s' = s.
  Lemma reached_claim h p T s : run_of h p -> OClaim T s Fresh ∈ h -> reached_by h T s.
  Proof.
    intros Hr Hc. pose proof (run_good k tasks root Hkeyed _ _ Hr) as Hg. split; [exact Hc|]. split.
    - destruct (good_in _ _ _ _ Hg Hc) as (h0 & _ & _ & _ & [_ (_ & H)]). exact H.
    - intros s' Hc'. eapply (claim_unique k tasks root); eassumption.
  Qed.

  (** C82: what a command writes ... *)
  Theorem C82_command_output h p x b : run_of h p -> OStart x b ∈ h ->
    exists s, reached_by h (x_task x) s /\ addressed tasks (k_terminal k) (x_out x) (item_around (x_task x) (x_path x) s).
  Proof.
    intros Hr Hin. destruct (run_said k tasks Hkeyed root h p Hr (EStart x) b Hin) as (s & H1 & H2). exists s. split; [eapply reached_claim; eassumption|exact H2].
  Qed.
  (** ... the line naming it, log items ... *)
  Theorem C82_item_line h p ev T pa d : run_of h p -> ev ∈ h -> (exists cmd, ev = OEcho T pa cmd d) \/ (exists text level, ev = OLog T pa text level d) ->
    exists s, reached_by h T s /\ addressed tasks (k_terminal k) d (item_around T pa s).
  Proof.
    intros Hr Hin [(cmd & ->)|(text & level & ->)].
    - destruct (run_said k tasks Hkeyed root h p Hr (EEcho T pa cmd d) tt Hin) as (s & H1 & H2). exists s. split; [eapply reached_claim; eassumption|exact H2].
    - destruct (run_said k tasks Hkeyed root h p Hr (ELog T pa text level d) tt Hin) as (s & H1 & H2). exists s. split; [eapply reached_claim; eassumption|exact H2].
  Qed.
  (** ... and the line naming a task, name the items around it, all of them and in order. *)
  Theorem C82_task_line h p T main d : run_of h p -> OHeader T main d ∈ h -> exists s, reached_by h T s /\ addressed tasks (k_terminal k) d (around s).
  Proof.
    intros Hr Hin. destruct (run_said k tasks Hkeyed root h p Hr (EHeader T main d) tt Hin) as (s & H1 & H2). exists s. split; [eapply reached_claim; eassumption|exact H2].
  Qed.
  (** Outside of blocks, and only there, a command writes to bab's own output. *)
  Theorem C82_plain_iff_outside h p x b s : run_of h p -> OStart x b ∈ h -> OClaim (x_task x) s Fresh ∈ h ->
    (x_out x = [] <-> item_around (x_task x) (x_path x) s = []).
  Proof.
    intros Hr Hin Hc. destruct (C82_command_output _ _ _ _ Hr Hin) as (s' & (_ & _ & Hu) & Ha). rewrite (Hu s Hc). eapply addressed_nil. exact Ha.
  Qed.
  (** In the TUI two commands shown under one key are at the same indices. *)
  Theorem C82_key_tells_indices h p x1 b1 x2 b2 path s1 s2 : run_of h p -> OStart x1 b1 ∈ h -> OStart x2 b2 ∈ h -> x_out x1 = [WKey path] -> x_out x2 = [WKey path] ->
    OClaim (x_task x1) s1 Fresh ∈ h -> OClaim (x_task x2) s2 Fresh ∈ h ->
    (item_around (x_task x1) (x_path x1) s1).*2 = (item_around (x_task x2) (x_path x2) s2).*2.
  Proof.
    intros Hr H1 H2 E1 E2 C1 C2. destruct (C82_command_output _ _ _ _ Hr H1) as (s1' & (_ & _ & U1) & A1). destruct (C82_command_output _ _ _ _ Hr H2) as (s2' & (_ & _ & U2) & A2).
    rewrite (U1 s1 C1), (U2 s2 C2). rewrite E1 in A1. rewrite E2 in A2. apply addressed_key in A1. apply addressed_key in A2. rewrite A1 in A2.
    apply (f_equal (@rev nat)) in A2. rewrite !rev_involutive in A2. exact A2.
  Qed.
  (** Without it, two items of one block whose labels differ are told apart. *)
  Theorem C82_labels_tell_items h p x1 b1 x2 b2 T t i j1 j2 o items l1 l2 s1 s2 : run_of h p -> OStart x1 b1 ∈ h -> OStart x2 b2 ∈ h -> x_out x1 = x_out x2 ->
    OClaim (x_task x1) s1 Fresh ∈ h -> OClaim (x_task x2) s2 Fresh ∈ h ->
    item_around (x_task x1) (x_path x1) s1 = (T, i, j1) :: l1 -> item_around (x_task x2) (x_path x2) s2 = (T, i, j2) :: l2 ->
    tasks !! T = Some t -> t_run t !! i = Some (RPar o items) -> NoDup (block_labels o items) -> j1 = j2.
  Proof.
    intros Hr H1 H2 E C1 C2 I1 I2 Ht Hi Hn. destruct (C82_command_output _ _ _ _ Hr H1) as (s1' & (_ & _ & U1) & A1). destruct (C82_command_output _ _ _ _ Hr H2) as (s2' & (_ & _ & U2) & A2).
    rewrite <- (U1 s1 C1), I1 in A1. rewrite <- (U2 s2 C2), I2, <- E in A2.
    destruct (addressed_item _ _ _ _ _ _ _ _ _ _ _ _ A1 A2 Ht Hi Hn) as [E'|(path & Ep)]; [exact E'|].
    rewrite Ep in A1, A2. apply addressed_key in A1. apply addressed_key in A2. rewrite A1 in A2. apply (f_equal (@rev nat)) in A2. rewrite !rev_involutive in A2. cbn in A2. congruence.
  Qed.

  (** C83: the summary of a block has a sign for every item, and it is true. *)
  Theorem C83_summary h p T pa fine d : run_of h p -> OSummary T pa fine d ∈ h ->
    exists s t i o items, reached_by h T s /\ tasks !! T = Some t /\ pa = [i] /\ t_run t !! i = Some (RPar o items) /\
      addressed tasks (k_terminal k) d (around s) /\
      decided false (q_silent o :: enclosing r_silent q_silent s ++ [t_silent t; k_silent k]) false /\
      length fine = length items /\
      (forall j, fine !! j = Some true <-> j < length items /\ OReturn T pa j None ∈ h) /\
      (forall j, fine !! j = Some false <-> j < length items /\ ((exists e, OReturn T pa j (Some e) ∈ h) \/ exists c, OGiveUp T pa j c ∈ h)).
  Proof.
    intros Hr Hin. pose proof (run_good k tasks root Hkeyed _ _ Hr) as Hg.
    destruct (run_said k tasks Hkeyed root h p Hr (ESummary T pa fine d) tt Hin) as (s & t & i & o & items & H1 & H2 & H3 & H4 & H5 & H6 & H7 & H8).
    exists s, t, i, o, items. split; [eapply reached_claim; eassumption|]. repeat (split; [assumption|]). split.
    { assert (H := decided_with false r_silent q_silent None (FBlock T pa o :: s) [t_silent t; k_silent k]). inversion H as [| |l b' H' E1 E2]; subst.
      change (first_non_nil (None :: override r_silent q_silent (FBlock T [i] o :: s) :: [t_silent t; k_silent k])) with (first_non_nil [first_set (q_silent o) (override_silent s); t_silent t; k_silent k]) in H'.
      unfold is_silent in H6. rewrite H6 in H'. exact H'. }
    assert (forall j r r', OReturn T pa j r ∈ h -> OReturn T pa j r' ∈ h -> r = r') as Hsame.
    { intros j r r' Ha Hb. assert (OReturn T pa j r = OReturn T pa j r') as E; [|congruence]. apply (same _ _ _ (OReturn T pa j r) (OReturn T pa j r') h Hg Ha Hb).
      - intros h2 _ [_ HB] Hin'. destruct HB as (_ & Hn & _). exact (Hn _ Hin').
      - intros h2 _ [_ HB] Hin'. destruct HB as (_ & Hn & _). exact (Hn _ Hin'). }
    assert (forall j r c, OReturn T pa j r ∈ h -> OGiveUp T pa j c ∈ h -> False) as Hex.
    { intros j r c Ha Hb. destruct (good_in _ _ _ _ Hg Ha) as (h2 & Hs2 & _ & _ & [_ (Hslot & _)]).
      eapply (slot_or_giveup k tasks root); [exact Hg| |exact Hb]. eapply suffix_elem; [etransitivity; [apply suffix_cons_self|exact Hs2]|exact Hslot]. }
    split; [exact H7|]. split; intros j; split.
    - intros E. split; [rewrite <- H7; eapply lookup_lt_Some; exact E|]. exact (H8 _ _ E).
    - intros (Hj & Hret). rewrite <- H7 in Hj. destruct (lookup_lt_is_Some_2 fine j Hj) as [b E]. rewrite E. f_equal. destruct b; [reflexivity|]. exfalso.
      destruct (H8 _ _ E) as [(e & He)|(c & Hc)]; [pose proof (Hsame _ _ _ Hret He) as X; discriminate X|eapply Hex; eassumption].
    - intros E. split; [rewrite <- H7; eapply lookup_lt_Some; exact E|]. exact (H8 _ _ E).
    - intros (Hj & Hret). rewrite <- H7 in Hj. destruct (lookup_lt_is_Some_2 fine j Hj) as [b E]. rewrite E. f_equal. destruct b; [|reflexivity]. exfalso.
      pose proof (H8 _ _ E) as He. cbn in He. destruct Hret as [(e & Hret)|(c & Hc)]; [pose proof (Hsame _ _ _ Hret He) as X; discriminate X|eapply Hex; eassumption].
  Qed.

  (** C84: what bab itself writes to standard output is the text of log items in blocks. *)
  Theorem C84_stdout_partial h p ev d : run_of h p -> ev ∈ h -> own_line ev = Some (SOut, d) ->
    exists T pa text level s t l, ev = OLog T pa text level d /\ reached_by h T s /\ item_around T pa s <> [] /\
      tasks !! T = Some t /\ item_at t pa (RLog l).
  Proof.
    intros Hr Hin Ho. pose proof (run_good k tasks root Hkeyed _ _ Hr) as Hg.
    destruct ev as [| | | | | | | | | | | | | | | | |T pa text level d'| | | | | | | | | | |]; try discriminate Ho.
    assert (d' = d /\ d <> []) as [-> Hd] by (cbn in Ho; destruct d'; [discriminate Ho|]; injection Ho as <-; split; [reflexivity|discriminate]).
    destruct (C82_item_line h p _ T pa d Hr Hin ltac:(right; eauto)) as (s & Hs & Ha).
    destruct (good_in _ _ _ _ Hg Hin) as (h2 & _ & _ & _ & [_ (_ & _ & _ & t & lg & vars & Ht & Hru & _)]).
    exists T, pa, text, level, s, t, lg. split; [reflexivity|]. split; [exact Hs|]. split; [intros E; apply Hd; eapply addressed_nil; eassumption|]. split; [exact Ht|].
    eapply runs_item; eassumption.
  Qed.
End Theorems.
Print Assumptions C82_command_output. Print Assumptions C82_item_line. Print Assumptions C82_task_line. Print Assumptions C82_plain_iff_outside.
Print Assumptions C82_key_tells_indices. Print Assumptions C82_labels_tell_items. Print Assumptions C83_summary. Print Assumptions C84_stdout_partial.

(** ** The conditions are met *)
(** A block in a block: the second item of [all] runs [sub], whose first item fails. *)
Definition block (mode : string) (items : list run_item) : run_item := RPar (ParOpts 1 [] (lit mode) 0 None None None [] []) items.
Definition nest_tasks (mode : string) : taskmap := tm
  [ mk "all" None [] [block mode [cmd "left"; ref "sub"]];
    mk "sub" None ["dep"%string] [cmd "first"; block mode [cmd "bad"; note "said"]];
    mk "dep" None [] [cmd "early"] ].
Definition on_terminal : config := Config false ∅ None None None [] (fun _ => []) [lit "HOME=/h"] (lit "linux") true.
Definition nest_script : list act :=
  [Go [] 60 fine; Do [] (MSlot 0); Go [0] 60 fine; Do [] (MReturn 0); Do [] (MFree 0); Do [] (MSlot 1); Go [1] 100 fine;
   Do [1] (MSlot 1); Go [1; 1] 60 fine; Do [1] (MReturn 1); Do [1] (MFree 1); Do [1] (MSlot 0); Go [1; 0] 60 failing; Do [1] (MReturn 0); Do [1] (MFree 0); Do [1] MJoin;
   Go [1] 60 fine; Do [] (MReturn 1); Do [] (MFree 1); Do [] MJoin; Go [] 60 fine].
Definition nest_plain := ran (conf false) (nest_tasks "") (lit "all") nest_script.
Definition nest_tui := ran on_terminal (nest_tasks "grouped") (lit "all") nest_script.
(** Who shows something, and where. *)
Definition shows (h : hist) : list (str * dest) :=
  rev (omap (fun ev => match ev with OStart x _ => Some (x_cmd x, x_out x) | OLog _ _ text _ d => Some (text, d) | _ => None end) h).
Definition summaries (h : hist) : list (str * list bool * dest) :=
  rev (omap (fun ev => match ev with OSummary T _ fine d => Some (T, fine, d) | _ => None end) h).


Example C82_met : keyed (nest_tasks "") /\ keyed (nest_tasks "grouped") /\
  shows nest_plain.1 = [(lit "early", []); (lit "left", [WPrefix (lit "left") 4]); (lit "first", [WPrefix (lit "sub") 4]);
    (lit "said", [WPrefix (lit "said") 4; WPrefix (lit "sub") 4]); (lit "bad", [WPrefix (lit "bad") 4; WPrefix (lit "sub") 4])] /\
  shows nest_tui.1 = [(lit "early", []); (lit "left", [WKey [0]]); (lit "first", [WKey [1]]); (lit "said", [WKey [1; 1]]); (lit "bad", [WKey [1; 0]])].
Proof. split; [apply keyed_by; vm_compute; reflexivity|]. split; [apply keyed_by; vm_compute; reflexivity|]. vm_compute. auto. Qed.
Example C83_met : summaries nest_tui.1 = [(lit "sub", [false; true], [WKey [1]]); (lit "all", [true; false], [])].
Proof. vm_compute. reflexivity. Qed.
Example C84_met : omap (fun ev => match own_line ev with Some (SOut, d) => Some d | _ => None end) nest_plain.1 = [[WPrefix (lit "said") 4; WPrefix (lit "sub") 4]].
Proof. vm_compute. reflexivity. Qed.

(** ** What does not hold *)
(** Two items that have the same name: nothing tells their output apart. *)
Definition alike_tasks : taskmap := tm [mk "all" None [] [block "" [cmd "go test ./internal/parser"; cmd "go test ./internal/printer"]]].
Definition alike := ran (conf false) alike_tasks (lit "all") [Go [] 60 fine; Do [] (MSlot 0); Go [0] 60 fine; Do [] (MSlot 1); Go [1] 60 fine].
Theorem C82_labels_tell_items_refuted : exists k tasks root h p x1 x2, keyed tasks /\ run_of k tasks root h p /\ OStart x1 true ∈ h /\ OStart x2 true ∈ h /\
  x_path x1 = [0; 0] /\ x_path x2 = [0; 1] /\ x_out x1 = x_out x2.
Proof.
  exists (conf false), alike_tasks, (lit "all"), alike.1, alike.2.
  assert (forall j, has (fun ev => match ev with OStart x true => bool_decide (x_path x = [0; j] /\ x_out x = [WPrefix (lit "go test ./internal/p") 20]) | _ => false end) alike.1 = true ->
    exists x, OStart x true ∈ alike.1 /\ x_path x = [0; j] /\ x_out x = [WPrefix (lit "go test ./internal/p") 20]) as H.
  { intros j Hj. apply has_in in Hj as (ev & Hin & Hev). destruct ev as [| | | | | | | | | | | | | |x [|]| | | | | | | | | | | | | |]; try discriminate Hev. apply bool_decide_eq_true_1 in Hev. eauto. }
  destruct (H 0 ltac:(vm_compute; reflexivity)) as (x1 & H1 & P1 & D1). destruct (H 1 ltac:(vm_compute; reflexivity)) as (x2 & H2 & P2 & D2).
  exists x1, x2. split; [apply keyed_by; vm_compute; reflexivity|]. split; [apply ran_run|]. repeat split; congruence || assumption.
Qed.
Print Assumptions C82_labels_tell_items_refuted.

(** A log item in a block does write to standard output: of [bab all | less] only the
    lines of log items in blocks reach the pipe, those of other log items do not. *)
Definition logs_tasks : taskmap := tm [mk "all" None [] [note "outside"; block "" [note "inside"]]].
Definition logs := ran (conf false) logs_tasks (lit "all") [Go [] 60 fine; Do [] (MSlot 0); Go [0] 60 fine].
Theorem C84_stdout_refuted : exists k tasks root h p e1 e2 text1 text2 level d, keyed tasks /\ run_of k tasks root h p /\ e1 ∈ h /\ e2 ∈ h /\
  e1 = OLog root [0] text1 level [] /\ e2 = OLog root [1; 0] text2 level d /\ own_line e1 = Some (SErr, []) /\ own_line e2 = Some (SOut, d).
Proof.
  exists (conf false), logs_tasks, (lit "all"), logs.1, logs.2, (OLog (lit "all") [0] (lit "outside") (lit "info") []), (OLog (lit "all") [1; 0] (lit "inside") (lit "info") [WPrefix (lit "inside") 6]).
  do 4 eexists. split; [apply keyed_by; vm_compute; reflexivity|]. split; [apply ran_run|]. split.
  - assert (has (fun ev => match ev with OLog T pa text level [] => bool_decide (T = lit "all" /\ pa = [0] /\ text = lit "outside" /\ level = lit "info") | _ => false end) logs.1 = true) as Hj by (vm_compute; reflexivity).
    apply has_in in Hj as (ev & Hin & Hev). destruct ev as [| | | | | | | | | | | | | | | | |T pa text level [|]| | | | | | | | | | |]; try discriminate Hev. apply bool_decide_eq_true_1 in Hev as (-> & -> & -> & ->). exact Hin.
  - split; [|auto 10].
    assert (has (fun ev => match ev with OLog T pa text level d => bool_decide (T = lit "all" /\ pa = [1; 0] /\ text = lit "inside" /\ level = lit "info" /\ d = [WPrefix (lit "inside") 6]) | _ => false end) logs.1 = true) as Hj by (vm_compute; reflexivity).
    apply has_in in Hj as (ev & Hin & Hev). destruct ev as [| | | | | | | | | | | | | | | | |T pa text level d'| | | | | | | | | | |]; try discriminate Hev. apply bool_decide_eq_true_1 in Hev as (-> & -> & -> & -> & ->). exact Hin.
Qed.
Print Assumptions C84_stdout_refuted.

(** A debug message is shown without [--verbose] if it is in a block, and only then. *)
Theorem C84_debug_in_blocks verbose level d : log_visible verbose level d = false <-> d = [] /\ verbose = false /\ level = lit "debug".
Proof.
  unfold log_visible. destruct d; [|split; [discriminate|intros (H & _); discriminate H]]. destruct verbose; cbn; [split; [discriminate|intros (_ & H & _); discriminate H]|].
  destruct (decide (level = lit "debug")) as [->|N]; [rewrite bool_decide_true by reflexivity; tauto|rewrite bool_decide_false by exact N; cbn; split; [discriminate|tauto]].
Qed.
Print Assumptions C84_debug_in_blocks.
