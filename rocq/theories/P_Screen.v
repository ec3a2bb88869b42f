(** Theorems about what the terminal gets from a run: C97. *)
From Verif Require Import Base Interp_Model Cond_Model Types_Model Path_Model Run_Model Run_Spec Run_Logic Run_Inv Run_Proof Run_Facts Run_Drive P_Run P_Run_Cmd.
From Verif Require Import Label_Model Out_Model Out_Spec Out_Proof P_Out Dest_Spec Alone_Spec Alone_Proof P_Alone P_Dest.
From Verif Require Import Screen_Model Screen_Spec Screen_Proof Screen_Inv Screen_Main Screen_End.

Lemma prefix_flat tasks style : (forall j l, nl ∉ l -> nl ∉ style j l) ->
  (forall T t i o items j, tasks !! T = Some t -> t_run t !! i = Some (RPar o items) -> nl ∉ item_label o items j) -> forall it, nl ∉ prefix_at tasks style it.
Proof.
  intros Hs Hl [[T i] j]. unfold prefix_at. simpl. destruct (tasks !! T) as [t|] eqn:Et; [|apply not_elem_of_nil]. destruct (t_run t !! i) as [[]|] eqn:Ei; try apply not_elem_of_nil.
  apply Hs. unfold label_prefix, pad_right. rewrite !not_elem_of_app. split; [apply (bool_decide_eq_true_1 (nl ∉ lit "[")); vm_compute; reflexivity|].
  split; [split; [eapply Hl; eassumption|]|apply (bool_decide_eq_true_1 (nl ∉ lit "] ")); vm_compute; reflexivity].
  intros Hin. apply elem_of_list_In, repeat_spec in Hin. discriminate Hin.
Qed.
Lemma shown_flat a : (forall s, nl ∉ s -> nl ∉ a_strip a s) -> forall b l, nl ∉ l -> nl ∉ shown a b l.
Proof.
  intros Hs b l Hl. destruct b; [|apply C37_no_newline_inside].
  unfold shown, clean_line. apply Hs. revert Hl. induction l as [|c l IH]; simpl; [auto|]. intros H. apply not_elem_of_cons in H as [H1 H2]. destruct (decide (cr ∈ l)); [auto|]. destruct (decide (c = cr)); [exact H2|]. rewrite not_elem_of_cons. auto.
Qed.

Section Theorems.
  Context (k : config) (tasks : taskmap) (root : str) (Hkeyed : keyed tasks).
  Context (a : ansi_lib) (style : nat -> str -> str) (strip : spot -> bool) (says : event -> list str).
  (** No newlines in labels and in bab's own lines, and none made by styling and stripping. *)
  Context (Hstyle : forall j l, nl ∉ l -> nl ∉ style j l).
  Context (Hlabels : forall T t i o items j, tasks !! T = Some t -> t_run t !! i = Some (RPar o items) -> nl ∉ item_label o items j).
  Context (Hstrip : forall s, nl ∉ s -> nl ∉ a_strip a s).
  Context (Hsays : forall ev, Forall (fun l => nl ∉ l) (says ev)).
  Notation run_of := (run_of k tasks root).
  Notation xrun := (xrun a tasks style strip says k root).
  Notation carried := (carried a tasks style strip).
  Notation carry := (carry a tasks style strip).
  Let Hpre := prefix_flat tasks style Hstyle Hlabels.
  Let Hshown := shown_flat a Hstrip.

  Lemma carry_carried w : (forall T i j, (T, i, j) ∈ w -> block_item tasks T i j) -> forall l, carried w l (carry w l).
  Proof.
    induction w as [|[[T i] j] w IH]; intros Hw l; simpl; [constructor|]. destruct (Hw T i j) as (t & o & items & Ht & Hi & Hj); [left|].
    assert (E : prefix_at tasks style (T, i, j) = style j (label_prefix (item_label o items j) (max_label (block_labels o items)))) by (unfold prefix_at; simpl; rewrite Ht, Hi; reflexivity).
    rewrite E. econstructor; [econstructor; eassumption|]. apply IH. intros T' i' j' Hin. apply Hw. right. exact Hin.
  Qed.
  Lemma carry_flat w : forall l, nl ∉ l -> nl ∉ carry w l.
  Proof. induction w as [|it w IH]; intros l Hl; simpl; [exact Hl|]. apply IH. rewrite not_elem_of_app. split; [apply Hpre|apply Hshown; exact Hl]. Qed.
  Lemma bab_real h p ev v s d : run_of h p -> ev ∈ h -> own_line ev = Some (s, d) -> spot_of (fun e => e ∈ h) ev v -> forall T i j, (T, i, j) ∈ v -> block_item tasks T i j.
  Proof.
    intros Hr Hin Eo Hv T i j Hp. pose proof (run_good k tasks root Hkeyed _ _ Hr) as Hg. destruct (good_in _ _ _ _ Hg Hin) as (h0 & _ & _ & _ & [_ HB]).
    assert (Hit : forall T' pa s' it h0, OClaim T' s' Fresh ∈ h -> runs k tasks h0 T' pa it -> (T, i, j) ∈ item_around T' pa s' -> block_item tasks T i j).
    { intros T' pa s' it h1 Hc (t & Ht & Hi & _) Hel. unfold item_around in Hel.
      assert (Ha : (T, i, j) ∈ around s' -> block_item tasks T i j) by (intros H; eapply around_real; [eapply claim_reached; eassumption|exact H]).
      destruct pa as [|i0 [|j0 [|]]]; try (apply Ha; exact Hel). apply elem_of_cons in Hel as [Hel|Hel]; [|apply Ha; exact Hel]. injection Hel as -> -> ->.
      simpl in Hi. destruct Hi as (o & items & Ho & Hj). exists t, o, items. split; [exact Ht|]. split; [exact Ho|]. apply lookup_lt_Some in Hj. exact Hj. }
    destruct ev; try discriminate Eo; simpl in Hv; try (destruct Hv; fail); destruct Hv as (s' & Hc & ->); try (eapply around_real; [eapply claim_reached; eassumption|exact Hp]).
    - destruct HB as (_ & _ & _ & t' & c & s1 & sc & vars & _ & Hr' & _). eapply Hit; eassumption.
    - destruct HB as (_ & _ & _ & t' & lg & vars & _ & Hr' & _). eapply Hit; eassumption.
  Qed.
  Lemma report h p c o log tl s : run_of h p -> sinv tasks a style strip says h c o log tl ->
    (forall e, e ∈ log s -> from h s e) /\ Forall2 (fun e t => carried (e_in e) (e_text e) t) (log s) (map (fun e => carry (e_in e) (e_text e)) (log s)).
  Proof.
    intros Hr [I1 I2 I3 I4 I5 I6 I7].
    assert (Hf : forall e, e ∈ log s -> from h s e).
    { intros e He. specialize (I7 s e He). unfold from. destruct (e_by e) as [T pa|ev] eqn:Eb.
      - destruct I7 as (x & H1 & H2 & H3 & H4). exists x. auto.
      - destruct I7 as [H1 H2]. split; [exact H1|]. split; [|exact H2].
        assert (Hin : (ev, e_text e) ∈ by_bab (log s)) by (apply elem_of_list_omap; exists e; rewrite Eb; auto).
        rewrite I6 in Hin. unfold own_lines in Hin. apply elem_of_list_In, in_flat_map in Hin as (ev' & _ & Hin). destruct (own_line ev') as [[s' d]|] eqn:Eo; [|destruct Hin].
        destruct (decide (s' = s)) as [->|]; [|destruct Hin]. apply in_map_iff in Hin as (l & E & _). injection E as -> _. eauto. }
    split; [exact Hf|]. apply Forall2_fmap_r. apply Forall_Forall2_diag. apply Forall_forall. intros e He. apply carry_carried. specialize (Hf e He). unfold from in Hf. destruct (e_by e) as [T pa|ev].
    - destruct Hf as (x & Hx & _ & _ & ->). eapply place_real; eassumption.
    - destruct Hf as (Hin & (d & Eo) & [Hv|(T & pa & w & _ & ->)]); [eapply bab_real; eassumption|]. intros T' i j Hin'. inversion Hin'.
  Qed.

  (** What a run without TUI has written when it is over, on each of its two streams: whole
      lines, which come from commands and from bab itself. The lines of each command are
      those it wrote, all of them and in order; bab's own lines are in order, too. Each line
      has the labels of the items it is from, whatever else ran at the same time. *)
  Theorem C97_finished h r c o s : xrun (h, Ret r, c, o) -> tidy h o ->
    exists log texts, sc_tty c s = typed texts /\ Forall2 (fun e t => carried (e_in e) (e_text e) t) log texts /\ Forall (from h s) log /\
      (forall x, OStart x true ∈ h -> lines (wrote (x_task x) (x_path x) s o) (by_command (x_task x) (x_path x) log)) /\
      by_bab log = own_lines says s h.
  Proof.
    intros Hx Ht. destruct (xrun_inv k tasks root Hkeyed a style strip says Hpre Hshown Hsays _ Hx) as [Hr HI]. simpl in Hr, HI. destruct (HI Ht) as (log & tl & HS).
    assert (Hcl : forall x, OStart x true ∈ h -> ~ opened h x).
    { intros x Hin [Ho|(i & j & Ep & Ho)].
      - apply Ho. destruct (over_ended k tasks root Hkeyed h r x Hr Hin) as [ok Hok]. exists ok. exact Hok.
      - destruct (over_returned k tasks root Hkeyed h r x i j Hr Hin Ep) as [r' Hr']. exact (Ho r' Hr'). }
    destruct (report h _ c o log tl s Hr HS) as [Hf Hc]. destruct HS as [I1 I2 I3 I4 I5 I6 I7].
    exists (log s), (map (fun e => carry (e_in e) (e_text e)) (log s)). split.
    - rewrite (I1 s). assert (E : tl s = []); [|rewrite E, app_nil_r; reflexivity]. destruct (tl s) eqn:E; [reflexivity|]. exfalso.
      destruct (I2 s []) as (x & Hin & _ & Ho); [simpl; congruence|]. exact (Hcl x Hin Ho).
    - split; [exact Hc|]. split; [apply Forall_forall; exact Hf|]. split; [|apply I6]. intros x Hin. apply I4; [exact Hin|apply Hcl; exact Hin].
  Qed.
  (** At any moment: the same, up to what commands have not finished yet. The last line of a
      command may be missing as long as the command runs or its item has not ended; only
      the line of a command outside of all blocks can be seen before it is finished. *)
  Theorem C97_any_time h p c o s : xrun (h, p, c, o) -> tidy h o ->
    exists log texts rest, sc_tty c s = typed texts ++ rest /\ Forall2 (fun e t => carried (e_in e) (e_text e) t) log texts /\ Forall (from h s) log /\
      (forall x, OStart x true ∈ h -> exists done pending, wrote (x_task x) (x_path x) s o = done ++ pending /\ nl ∉ pending /\ lines done (by_command (x_task x) (x_path x) log) /\
        (place x = [] -> ~ ended h x -> rest = pending) /\
        (pending <> [] -> ~ ended h x \/ exists i j, x_path x = [i; j] /\ forall r, OReturn (x_task x) [i] j r ∉ h)) /\
      by_bab log = own_lines says s h /\
      nl ∉ rest /\ (rest <> [] -> exists x, OStart x true ∈ h /\ ~ ended h x /\ place x = []).
  Proof.
    intros Hx Ht. destruct (xrun_inv k tasks root Hkeyed a style strip says Hpre Hshown Hsays _ Hx) as [Hr HI]. simpl in Hr, HI. destruct (HI Ht) as (log & tl & HS).
    destruct (report h _ c o log tl s Hr HS) as [Hf Hc]. destruct HS as [I1 I2 I3 I4 I5 I6 I7].
    exists (log s), (map (fun e => carry (e_in e) (e_text e)) (log s)), (tl s). split; [apply I1|]. split; [exact Hc|]. split; [apply Forall_forall; exact Hf|]. split; [|split; [apply I6|split]].
    - intros x Hin. destruct (opened_dec k tasks root Hkeyed h p x Hr Hin) as [Ho|Ho].
      + pose proof (I3 s x Hin Ho) as Hcut. exists (typed (by_command (x_task x) (x_path x) (log s))), (buf c tl s (place x)). split; [apply cuts_text; exact Hcut|]. split; [eapply cuts_no_nl; exact Hcut|]. split.
        * pose proof (cuts_lines _ _ _ (cuts_typed _ (cuts_flat _ _ _ Hcut))) as H. simpl in H. rewrite app_nil_r in H. exact H.
        * split; [intros -> _; reflexivity|]. intros _. exact Ho.
      + exists (wrote (x_task x) (x_path x) s o), []. split; [rewrite app_nil_r; reflexivity|]. split; [apply not_elem_of_nil|]. split; [apply I4; assumption|]. split; [intros _ He; destruct Ho; left; exact He|congruence].
    - destruct (tl s) eqn:E; [apply not_elem_of_nil|]. rewrite <- E. destruct (I2 s []) as (x & Hin & Ep & Ho); [simpl; congruence|]. pose proof (cuts_no_nl _ _ _ (I3 s x Hin Ho)) as H. rewrite Ep in H. exact H.
    - intros Hne. destruct (I2 s []) as (x & Hin & Ep & Ho); [exact Hne|]. exists x. split; [exact Hin|]. split; [|exact Ep]. destruct Ho as [Ho|(i & j & Epath & _)]; [exact Ho|].
      exfalso. unfold place in Ep. rewrite Epath in Ep. discriminate Ep.
  Qed.
  (** The labels on a line are determined by the item and the text, and a line on the terminal
      is one line. *)
  Theorem C97_one_form w l t t' : carried w l t -> carried w l t' -> t = t'.
  Proof.
    intros H. revert t'. induction H as [l|it w l pre out Hp _ IH]; intros t' H'; inversion H' as [|it' w' l' pre' out' Hp' Hc']; subst; [reflexivity|].
    assert (pre = pre') as <-; [|apply IH; exact Hc']. destruct Hp as [T t i j o items Ht Hi Hj]. inversion Hp' as [T' t2 i' j' o' items' Ht' Hi' Hj']; subst. rewrite Ht in Ht'. injection Ht' as <-. rewrite Hi in Hi'. injection Hi' as <- <-. reflexivity.
  Qed.
  Theorem C97_one_line w l t : carried w l t -> nl ∉ l -> nl ∉ t.
  Proof.
    induction 1 as [l|it w l pre out Hp _ IH]; intros Hl; [exact Hl|]. apply IH. rewrite not_elem_of_app. split; [|apply Hshown; exact Hl].
    destruct Hp as [T t i j o items Ht Hi Hj]. pose proof (Hpre (T, i, j)) as H. unfold prefix_at in H. simpl in H. rewrite Ht, Hi in H. exact H.
  Qed.
  (** The items above are those of the writers that bab gave to a command. *)
  Lemma addressed_frames d l : addressed tasks false d l -> Forall2 (frame_of tasks) d l.
  Proof. induction 1 as [|T t i j o items d l Ht Hi Hj _ IH|l _ E]; [constructor| |discriminate E]. constructor; [|exact IH]. exists T, t, i, j, o, items. auto 6. Qed.
  Theorem C97_writers h p x b : k_terminal k = false -> run_of h p -> OStart x b ∈ h -> Forall2 (frame_of tasks) (x_out x) (place x).
  Proof.
    intros Hk Hr Hin. destruct (C82_command_output k tasks root Hkeyed h p x b Hr Hin) as (s & (_ & _ & Hu) & Ha). destruct (place_eq k tasks root Hkeyed h p x b Hr Hin) as (s' & Hc' & -> & _).
    rewrite (Hu s' Hc'). rewrite Hk in Ha. apply addressed_frames. exact Ha.
  Qed.
  (** The same for bab's own lines. *)
  Theorem C97_own_writers h p ev s d w : k_terminal k = false -> run_of h p -> ev ∈ h -> own_line ev = Some (s, d) -> spot_of (fun e => e ∈ h) ev w -> Forall2 (frame_of tasks) d w.
  Proof.
    intros Hk Hr Hin Eo Hw.
    assert (Hi : forall T pa d', (exists cmd, ev = OEcho T pa cmd d') \/ (exists text level, ev = OLog T pa text level d') -> (exists s, OClaim T s Fresh ∈ h /\ w = item_around T pa s) -> Forall2 (frame_of tasks) d' w).
    { intros T pa d' He (s0 & Hc & ->). destruct (C82_item_line k tasks root Hkeyed h p ev T pa d' Hr Hin He) as (s1 & (_ & _ & Hu) & Ha). rewrite (Hu s0 Hc). rewrite Hk in Ha. apply addressed_frames. exact Ha. }
    destruct ev; try discriminate Eo.
    - injection Eo as _ <-. destruct Hw as (s0 & Hc & ->). destruct (C82_task_line k tasks root Hkeyed h p n main d0 Hr Hin) as (s1 & (_ & _ & Hu) & Ha). rewrite (Hu s0 Hc). rewrite Hk in Ha. apply addressed_frames. exact Ha.
    - injection Eo as _ <-. apply (Hi t p0 d0); [left; eauto|exact Hw].
    - assert (d0 = d) as -> by (simpl in Eo; destruct d0; injection Eo as _ <-; reflexivity). apply (Hi t p0 d); [right; eauto|exact Hw].
    - injection Eo as _ <-. destruct Hw as (s0 & Hc & ->). destruct (C83_summary k tasks root Hkeyed h p t p0 fine d0 Hr Hin) as (s1 & _ & _ & _ & _ & (_ & _ & Hu) & _ & _ & _ & Ha & _). rewrite (Hu s0 Hc). rewrite Hk in Ha. apply addressed_frames. exact Ha.
    - destruct Hw.
  Qed.
End Theorems.
Print Assumptions C97_finished.
Print Assumptions C97_any_time.
Print Assumptions C97_one_form.
Print Assumptions C97_one_line.
Print Assumptions C97_writers.
Print Assumptions C97_own_writers.

(** ** Scripted runs with output *)
Inductive xact := Play (l : list act) | Say (cmd : string) (s : stream) (d : str).
Section Drive.
  Context (a : ansi_lib) (tasks : taskmap) (style : nat -> str -> str) (strip : spot -> bool) (says : event -> list str) (g : gmap str str).
  Notation after := (after a tasks style strip says).
  Notation xstep := (xstep a tasks style strip says g).
  (** The events [evs], newest first, after [h]. *)
  Fixpoint replay (evs h : hist) (c : screen) : screen := match evs with [] => c | ev :: r => after (r ++ h) ev (replay r h c) end.
  Lemma replay_run h p h' p' c o : rtc (cstep g) (h, p) (h', p') -> rtc xstep (h, p, c, o) (h', p', replay (take (length h' - length h) h') h c, o).
  Proof.
    intros Hr. cut (exists evs, (h', p').1 = evs ++ h /\ rtc xstep (h, p, c, o) ((h', p').1, (h', p').2, replay evs h c, o)).
    { intros (evs & E & H). simpl in E, H. rewrite E in *. rewrite app_length. replace (length evs + length h - length h) with (length evs) by lia. rewrite take_app. exact H. }
    revert Hr. generalize (h', p'). clear h' p'. apply (rtc_ind_r (fun s => exists evs, s.1 = evs ++ h /\ rtc xstep (h, p, c, o) (s.1, s.2, replay evs h c, o))).
    - exists []. split; [reflexivity|apply rtc_refl].
    - intros s1 s2 _ Hs (evs & E & IH). destruct Hs as [h1 q ev q' Hp Ha|h1 q i]; simpl in E, IH; subst h1.
      + exists (ev :: evs). split; [reflexivity|]. eapply rtc_r; [exact IH|]. apply x_run. constructor; assumption.
      + exists (OCancel i :: evs). split; [reflexivity|]. eapply rtc_r; [exact IH|]. simpl. apply (x_run _ _ _ _ _ _ _ _ (OCancel i)). constructor 2.
  Qed.
  (** The running command [cmd]. *)
  Definition busy_with (h : hist) (cmd : string) : option proc_info :=
    head (omap (fun ev => match ev with OStart x true => if bool_decide (x_cmd x = lit cmd) && x_show x && negb (existsb (P_Alone.ended x) h) then Some x else None | _ => None end) h).
  Lemma busy_with_sound h cmd x : busy_with h cmd = Some x -> OStart x true ∈ h /\ x_show x = true /\ forall ok, OEnd (x_task x) (x_path x) ok ∉ h.
  Proof.
    unfold busy_with. intros H. destruct (omap _ h) as [|y r] eqn:E; [discriminate H|]. injection H as ->.
    assert (Hin : x ∈ x :: r) by left. rewrite <- E in Hin. apply elem_of_list_omap in Hin as (ev & Hin & Hev). destruct ev; try discriminate Hev. destruct started; [|discriminate Hev].
    destruct (_ && _ && _) eqn:Eb; [|discriminate Hev]. injection Hev as ->. apply andb_prop in Eb as [Eb E2]. apply andb_prop in Eb as [_ E1]. split; [exact Hin|]. split; [exact E1|].
    intros ok Hok. assert (Et : existsb (P_Alone.ended x) h = true); [|rewrite Et in E2; discriminate E2]. apply existsb_exists. exists (OEnd (x_task x) (x_path x) ok). split; [apply elem_of_list_In; exact Hok|].
    simpl. rewrite !bool_decide_eq_true_2 by reflexivity. reflexivity.
  Qed.
  Fixpoint xplay (l : list xact) (s : hist * prog * screen * writes) : hist * prog * screen * writes :=
    match l with
    | [] => s
    | Play acts :: r => let '(h, p, c, o) := s in let '(h', p') := play g acts (h, p) in xplay r (h', p', replay (take (length h' - length h) h') h c, o)
    | Say cmd st d :: r => let '(h, p, c, o) := s in
        match busy_with h cmd with Some x => xplay r (h, p, put a tasks style strip st (place x) d c, o ++ [(x, st, d)]) | None => s end
    end.
  Lemma xplay_run l : forall s, rtc xstep s (xplay l s).
  Proof.
    induction l as [|[acts|cmd st d] l IH]; intros [[[h p] c] o]; [apply rtc_refl| |]; simpl.
    - destruct (play g acts (h, p)) as [h' p'] eqn:E. eapply transitivity; [|apply IH]. apply replay_run. rewrite <- E. apply play_run.
    - destruct (busy_with h cmd) as [x|] eqn:E; [|apply rtc_refl]. apply busy_with_sound in E as (H1 & H2 & H3). eapply rtc_l; [|apply IH]. constructor; assumption.
  Qed.
End Drive.

(** A command outside of blocks, then a block of a command and a task with a block of its own. *)
Definition plain_style (_ : nat) (l : str) : str := l.
Definition says_tasks (ev : event) : list str := match ev with OHeader T _ _ => [lit "> " ++ T] | OSummary _ _ _ _ | _ => [] end.
Definition screen_run (tasks : taskmap) (l : list xact) := xplay plain_lib tasks plain_style (fun _ => false) says_tasks ∅ l ([], run_with_tasks (conf false) tasks (lit "all"), blank, []).
Definition nlit (s : string) : str := lit s ++ [nl].
Definition mixed := screen_run nested
  [Play [Go [] 8 fine]; Say "first" SOut (nlit "hello"); Play [Go [] 40 fine; Do [] (MSlot 0); Go [0] 4 fine; Do [] (MSlot 1)]; Say "make" SOut (lit "ma");
   Play [Go [1] 40 fine; Do [1] (MSlot 0); Go [1; 0] 4 fine; Do [1] (MSlot 1); Go [1; 1] 4 fine]; Say "left" SErr (lit "bad"); Say "right" SOut (nlit "fine");
   Say "make" SOut (nlit "ke" ++ lit "end"); Say "left" SOut (nlit "1" ++ nlit "2" ++ lit "3");
   Play [Go [0] 40 fine; Go [1; 0] 40 fine; Go [1; 1] 40 fine; Do [1] (MReturn 0); Do [1] (MReturn 1); Do [1] (MFree 0); Do [1] (MFree 1); Do [1] MJoin; Go [1] 40 fine;
         Do [] (MReturn 0); Do [] (MReturn 1); Do [] (MFree 0); Do [] (MFree 1); Do [] MJoin; Go [] 40 fine]].
Definition tidyb (h : hist) (o : writes) : bool :=
  forallb (fun ev => match ev with OStart x true => forallb (fun s => match x_path x with [_] => match last (wrote (x_task x) (x_path x) s o) with None => true | Some c => bool_decide (c = nl) end | _ => true end) [SOut; SErr] | _ => true end) h.
Lemma tidyb_sound h o : tidyb h o = true -> tidy h o.
Proof.
  intros H x i s Hx Ep _. unfold tidyb in H. rewrite forallb_forall in H. apply elem_of_list_In in Hx. specialize (H _ Hx). simpl in H.
  assert (Hs : match x_path x with [_] => match last (wrote (x_task x) (x_path x) s o) with None => true | Some c => bool_decide (c = nl) end | _ => true end = true).
  { apply andb_prop in H as [H1 H2]. apply andb_prop in H2 as [H2 _]. destruct s; assumption. }
  rewrite Ep in Hs. destruct (wrote (x_task x) [i] s o) as [|c d] using rev_ind; [left; reflexivity|right]. rewrite last_snoc in Hs. apply bool_decide_eq_true_1 in Hs as ->. eauto.
Qed.
(** The hypotheses of the theorems are met: labels and lines without newlines. *)
Lemma conditions_met : (forall j l, nl ∉ l -> nl ∉ plain_style j l) /\ (forall s, nl ∉ s -> nl ∉ a_strip plain_lib s).
Proof. split; auto. Qed.
Lemma flat_labels l : forallb (fun t => forallb (fun it => match it with RPar o items => forallb (fun j => bool_decide (nl ∉ item_label o items j)) (seq 0 (length (q_labels o) + length items)) | _ => true end) (t_run t)) l = true ->
  forall T t i o items j, tm l !! T = Some t -> t_run t !! i = Some (RPar o items) -> nl ∉ item_label o items j.
Proof.
  intros H T t i o items j Ht Hi. unfold tm in Ht. apply elem_of_list_to_map_2 in Ht. apply elem_of_list_fmap in Ht as (t' & E & Hin). injection E as _ ->.
  rewrite forallb_forall in H. apply elem_of_list_In in Hin. specialize (H _ Hin). rewrite forallb_forall in H. apply elem_of_list_lookup_2, elem_of_list_In in Hi. specialize (H _ Hi). simpl in H.
  destruct (decide (j < length (q_labels o) + length items)) as [Hj|Hj].
  - rewrite forallb_forall in H. specialize (H j). apply bool_decide_eq_true_1 in H; [exact H|]. apply in_seq. lia.
  - unfold item_label. rewrite !lookup_ge_None_2 by lia. apply not_elem_of_nil.
Qed.
Example C97_met : keyed nested /\ Screen_Model.xrun plain_lib nested plain_style (fun _ => false) says_tasks (conf false) (lit "all") mixed /\ tidy mixed.1.1.1 mixed.2 /\ mixed.1.1.2 = Ret None /\
  (forall T t i o items j, nested !! T = Some t -> t_run t !! i = Some (RPar o items) -> nl ∉ item_label o items j) /\
  map (fun e => (x_cmd e.1.1, e.1.2, e.2)) mixed.2 =
    [(lit "first", SOut, nlit "hello"); (lit "make", SOut, lit "ma"); (lit "left", SErr, lit "bad"); (lit "right", SOut, nlit "fine");
     (lit "make", SOut, nlit "ke" ++ lit "end"); (lit "left", SOut, nlit "1" ++ nlit "2" ++ lit "3")] /\
  sc_tty mixed.1.2 SOut = nlit "hello" ++ nlit "[sub ] [right] fine" ++ nlit "[make] make" ++ nlit "[sub ] [left ] 1" ++ nlit "[sub ] [left ] 2" ++ nlit "[sub ] [left ] 3" ++ nlit "[make] end" /\
  sc_tty mixed.1.2 SErr = nlit "> all" ++ nlit "[sub ] > sub" ++ nlit "[sub ] [left ] bad".
Proof.
  split; [apply keyed_by; vm_compute; reflexivity|]. split; [apply xplay_run|]. split; [apply tidyb_sound; vm_compute; reflexivity|]. split; [vm_compute; reflexivity|]. split; [|vm_compute; auto].
  apply flat_labels. vm_compute. reflexivity.
Qed.
(** Without the condition on unfinished lines it is false: two commands share a line. *)
Definition glued_tasks : taskmap := tm [mk "all" None [] [cmd "a"; cmd "b"]].
Definition glued := xplay plain_lib glued_tasks plain_style (fun _ => false) (fun _ => []) ∅
  [Play [Go [] 8 fine]; Say "a" SOut (lit "x"); Play [Go [] 7 fine]; Say "b" SOut (nlit "y"); Play [Go [] 40 fine]] ([], run_with_tasks (conf false) glued_tasks (lit "all"), blank, []).
Lemma typed_count ts : length ts <= length (List.filter (fun c => bool_decide (c = nl)) (typed ts)).
Proof.
  induction ts as [|t ts IH]; [apply le_n|]. unfold typed in *. simpl. rewrite <- app_assoc, List.filter_app. rewrite app_length. simpl. lia.
Qed.
Lemma by_command_in T pa l log : l ∈ by_command T pa log -> exists e, e ∈ log /\ e_by e = ByCommand T pa.
Proof.
  intros H. apply elem_of_list_omap in H as (e & He & E). exists e. split; [exact He|]. destruct (e_by e); [|discriminate E]. destruct (decide _) as [[-> ->]|]; [reflexivity|discriminate E].
Qed.
Lemma two_entries (log : list entry) e1 e2 : e1 ∈ log -> e2 ∈ log -> e1 <> e2 -> 2 <= length log.
Proof.
  intros H1 H2 Hne. destruct log as [|a [|b log]]; [inversion H1| |simpl; lia]. apply elem_of_list_singleton in H1, H2. congruence.
Qed.
Theorem C97_finished_refuted : exists k tasks root a style strip says h r c o,
  keyed tasks /\ Screen_Model.xrun a tasks style strip says k root (h, Ret r, c, o) /\
  ~ exists log texts, sc_tty c SOut = typed texts /\ Forall2 (fun e t => Screen_Spec.carried a tasks style strip (e_in e) (e_text e) t) log texts /\
      forall x, OStart x true ∈ h -> lines (wrote (x_task x) (x_path x) SOut o) (by_command (x_task x) (x_path x) log).
Proof.
  exists (conf false), glued_tasks, (lit "all"), plain_lib, plain_style, (fun _ => false), (fun _ => []), glued.1.1.1, None, glued.1.2, glued.2.
  split; [apply keyed_by; vm_compute; reflexivity|]. split.
  { assert (E : glued.1.1.2 = Ret None) by (vm_compute; reflexivity). rewrite <- E, <- !surjective_pairing. apply xplay_run. }
  intros (log & texts & Et & Hc & Hl).
  assert (Hx : forall i d, existsb (fun ev => match ev with OStart x true => bool_decide (x_task x = lit "all" /\ x_path x = [i]) | _ => false end) glued.1.1.1 = true ->
            wrote (lit "all") [i] SOut glued.2 = d -> d <> [] -> exists e, e ∈ log /\ e_by e = ByCommand (lit "all") [i]).
  { intros i d He Ew Hd. apply existsb_exists in He as (ev & Hin & He). destruct ev; try discriminate He. destruct started; [|discriminate He]. apply bool_decide_eq_true_1 in He as [E1 E2].
    specialize (Hl x). rewrite E1, E2, Ew in Hl. specialize (Hl ltac:(apply elem_of_list_In; exact Hin)).
    destruct (by_command (lit "all") [i] log) as [|l ls] eqn:Eb; [inversion Hl; congruence|]. apply (by_command_in _ _ l). rewrite Eb. left. }
  destruct (Hx 0 (lit "x")) as (e1 & H1 & E1); [vm_compute; reflexivity|vm_compute; reflexivity|discriminate|].
  destruct (Hx 1 (nlit "y")) as (e2 & H2 & E2); [vm_compute; reflexivity|vm_compute; reflexivity|discriminate|].
  assert (Hlen : 2 <= length log) by (eapply (two_entries log e1 e2 H1 H2); intros ->; rewrite E1 in E2; discriminate E2).
  apply Forall2_length in Hc. pose proof (typed_count texts) as Hn. rewrite <- Et in Hn.
  assert (E : length (List.filter (fun c => bool_decide (c = nl)) (sc_tty glued.1.2 SOut)) = 1) by (vm_compute; reflexivity). rewrite E in Hn. lia.
Qed.
Print Assumptions C97_finished_refuted.
(** In the middle of a run: the first command has not finished its line. *)
Definition halfway := screen_run nested [Play [Go [] 8 fine]; Say "first" SOut (nlit "hel" ++ lit "lo")].
Example C97_any_time_met : Screen_Model.xrun plain_lib nested plain_style (fun _ => false) says_tasks (conf false) (lit "all") halfway /\ tidy halfway.1.1.1 halfway.2 /\
  sc_tty halfway.1.2 SOut = nlit "hel" ++ lit "lo".
Proof. split; [apply xplay_run|]. split; [|vm_compute; reflexivity]. intros x i s Hx Ep [ok He]. exfalso. assert (Hn : existsb (fun ev => match ev with OEnd _ _ _ => true | _ => false end) halfway.1.1.1 = false) by (vm_compute; reflexivity).
  assert (Ht : existsb (fun ev => match ev with OEnd _ _ _ => true | _ => false end) halfway.1.1.1 = true) by (apply existsb_exists; exists (OEnd (x_task x) (x_path x) ok); split; [apply elem_of_list_In; exact He|reflexivity]). rewrite Hn in Ht. discriminate Ht.
Qed.
(** The writers of a command in a block in a block. *)
Example C97_writers_met : k_terminal (conf false) = false /\
  omap (fun ev => match ev with OStart x true => if decide (x_cmd x = lit "left") then Some (x_out x, place x) else None | _ => None end) mixed.1.1.1 =
    [([WPrefix (lit "left") 5; WPrefix (lit "sub") 4], [(lit "sub", 0, 0); (lit "all", 1, 1)])].
Proof. split; vm_compute; reflexivity. Qed.
