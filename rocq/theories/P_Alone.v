(** Theorems about commands that run at the same time: C96. *)
From Verif Require Import Base Interp_Model Cond_Model Types_Model Path_Model Run_Model Run_Spec Run_Logic Run_Inv Run_Proof Run_Facts Run_Drive P_Run P_Run_Cmd.
From Verif Require Import Dest_Spec Alone_Spec Alone_Proof.

(** Run item [i] of [T] is a parallel block with an item [j]. *)
Definition block_item (tasks : taskmap) (T : str) (i j : nat) : Prop :=
  exists t o items, tasks !! T = Some t /\ t_run t !! i = Some (RPar o items) /\ j < length items.
(** The places are in different items of one block of the tasks. *)
Definition other_items (tasks : taskmap) (v w : spot) : Prop :=
  exists T i j j' l1 l2 l, j <> j' /\ v = l1 ++ (T, i, j) :: l /\ w = l2 ++ (T, i, j') :: l /\ block_item tasks T i j /\ block_item tasks T i j'.
Lemma around_real tasks root T s : reached tasks root T s -> forall T' i j, (T', i, j) ∈ around s -> block_item tasks T' i j.
Proof.
  induction 1 as [|T t s d _ IH _ _|T t s i r _ IH _ _|T t s i o items j r _ IH Ht Hi Hj|T t s i o items r t' d _ IH _ _ _ _ _]; intros T' i' j' Hin; simpl in Hin; eauto.
  - apply elem_of_nil in Hin. destruct Hin.
  - apply elem_of_cons in Hin as [[= -> -> ->]|Hin]; [|eauto]. exists t, o, items. repeat (split; [assumption|]). apply lookup_lt_Some in Hj. exact Hj.
Qed.
Lemma divided_not_inside v w l : divided v w -> w = l ++ v -> False.
Proof.
  intros (T & i & j & j' & l1 & l2 & m & Hne & E1 & E2) E. rewrite E1, E2, app_assoc in E.
  assert (E' : (l2 ++ [(T, i, j')]) ++ m = ((l ++ l1) ++ [(T, i, j)]) ++ m) by (rewrite <- !app_assoc; rewrite <- app_assoc in E; exact E).
  apply app_inv_tail, app_inj_tail in E' as [_ E']. congruence.
Qed.
Lemma divided_sym v w : divided v w -> divided w v.
Proof. intros (T & i & j & j' & l1 & l2 & m & Hne & E1 & E2). exists T, i, j', j, l2, l1, m. auto. Qed.
Lemma during_in h x ev : during h x ev -> OStart x true ∈ h /\ ev ∈ h.
Proof. intros (h3 & h2 & h1 & -> & _). rewrite !elem_of_app, !elem_of_cons, !elem_of_app, !elem_of_cons. auto 10. Qed.

Section Theorems.
  Context (k : config) (tasks : taskmap) (root : str) (Hkeyed : keyed tasks).
  Notation run_of := (run_of k tasks root).

  Lemma place_real h p x b : run_of h p -> OStart x b ∈ h -> forall T i j, (T, i, j) ∈ place x -> block_item tasks T i j.
  Proof.
    intros Hr Hin T i j Hp. apply elem_of_list_split in Hin as (h2 & h1 & ->).
    destruct (C32_precedence k tasks root Hkeyed _ p x b h1 Hr) as (t & c & s & _ & Ht & Hi & _ & Hre & Hsc & _); [exists h2; reflexivity|].
    unfold place, item_around in Hp. unfold item_scope in Hsc. destruct (x_path x) as [|i0 [|j0 [|]]]; try contradiction.
    - subst. eapply around_real; eassumption.
    - destruct Hsc as (o & items & Ho & E). rewrite E in Hp. simpl in Hp. apply elem_of_cons in Hp as [Hp|Hp]; [|eapply around_real; eassumption].
      injection Hp as -> -> ->. exists t, o, items. split; [exact Ht|]. split; [exact Ho|]. simpl in Hi. destruct Hi as (o' & items' & Ho' & Hl).
      rewrite Ho in Ho'. injection Ho' as <- <-. apply lookup_lt_Some in Hl. exact Hl.
  Qed.

  (** Whenever a command starts while another one runs, there is a parallel block that both
      are inside of, in different items of it. *)
  Theorem C96_overlap h p x y : run_of h p -> during h x (OStart y true) -> other_items tasks (place x) (place y).
  Proof.
    intros Hr Hd. destruct (inv_run k tasks root Hkeyed h p Hr) as (_ & _ & Ha). destruct (Ha x _ Hd eq_refl) as (v & Hv & (T & i & j & j' & l1 & l2 & l & Hne & E1 & E2)).
    simpl in Hv. subst v. destruct (during_in _ _ _ Hd) as [Hx Hy].
    exists T, i, j, j', l1, l2, l. repeat (split; [assumption|]). split.
    - eapply (place_real h p x true Hr Hx). rewrite E1. apply elem_of_app. right. left.
    - eapply (place_real h p y true Hr Hy). rewrite E2. apply elem_of_app. right. left.
  Qed.
  Lemma overlap_divided h p x y : run_of h p -> during h x (OStart y true) -> divided (place x) (place y).
  Proof. intros Hr Hd. destruct (C96_overlap h p x y Hr Hd) as (T & i & j & j' & l1 & l2 & l & Hne & E1 & E2 & _). exists T, i, j, j', l1, l2, l. auto. Qed.
  (** Commands of the same item, directly or in tasks it calls, run one after the other. So
      do those outside of all blocks. *)
  Theorem C96_same_item h p x y : run_of h p -> place x = place y -> ~ during h x (OStart y true).
  Proof. intros Hr E Hd. eapply (divided_not_inside _ _ []); [eapply overlap_divided; eassumption|]. symmetry. exact E. Qed.
  (** While a command runs nothing starts further inside of its item, and nothing of the
      items around it either. *)
  Theorem C96_inside h p x y l : run_of h p -> place y = l ++ place x \/ place x = l ++ place y -> ~ during h x (OStart y true).
  Proof.
    intros Hr E Hd. pose proof (overlap_divided h p x y Hr Hd) as Ha.
    destruct E as [E|E]; [exact (divided_not_inside _ _ l Ha E)|exact (divided_not_inside _ _ l (divided_sym _ _ Ha) E)].
  Qed.
  (** A command outside of all blocks runs alone. *)
  Theorem C96_outside h p x y : run_of h p -> place x = [] \/ place y = [] -> ~ during h x (OStart y true).
  Proof.
    intros Hr E. destruct E as [E|E]; [apply (C96_inside h p x y (place y) Hr); left|apply (C96_inside h p x y (place x) Hr); right]; rewrite E, app_nil_r; reflexivity.
  Qed.
  (** Without parallel blocks at most one command runs at a time. *)
  Theorem C96_sequential h p x y : (forall T t o items, tasks !! T = Some t -> RPar o items ∉ t_run t) -> run_of h p -> ~ during h x (OStart y true).
  Proof.
    intros Hno Hr Hd. destruct (C96_overlap h p x y Hr Hd) as (T & i & j & j' & _ & _ & _ & _ & _ & _ & (t & o & items & Ht & Hi & _) & _).
    apply (Hno T t o items Ht). eapply elem_of_list_lookup_2. exact Hi.
  Qed.

  (** The same for what bab itself does: while a command runs, a question is only asked, and a
      line only written, in other items of a block around the command. [w]: the item the
      question or line belongs to. *)
  Lemma spot_of_in h p ev w v : run_of h p -> spot_of (fun e => e ∈ h) ev w -> spot_of (fun e => e ∈ h) ev v -> w = v.
  Proof.
    intros Hr. pose proof (run_good k tasks root Hkeyed _ _ Hr) as Hg.
    assert (H : forall T s s', OClaim T s Fresh ∈ h -> OClaim T s' Fresh ∈ h -> s = s') by (intros; eapply claim_unique; eassumption).
    intros H1 H2. destruct ev; simpl in H1, H2; try contradiction; try congruence;
      try (destruct H1 as (s1 & C1 & ->), H2 as (s2 & C2 & ->); rewrite (H _ _ _ C1 C2); reflexivity).
    destruct H1 as (s1 & i1 & E1 & C1 & ->), H2 as (s2 & i2 & E2 & C2 & ->). rewrite (H _ _ _ C1 C2). congruence.
  Qed.
  Theorem C96_bab_itself h p x ev w : run_of h p -> during h x ev -> has_spot ev = true -> spot_of (fun e => e ∈ h) ev w -> divided (place x) w.
  Proof.
    intros Hr Hd He Hw. destruct (inv_run k tasks root Hkeyed h p Hr) as (_ & _ & Ha). destruct (Ha x ev Hd He) as (v & Hv & H). rewrite (spot_of_in h p ev w v Hr Hw Hv). exact H.
  Qed.
  (** A question outside of all blocks is asked when no command is running; and while a command
      outside of all blocks runs, nothing is asked and bab writes nothing. *)
  Theorem C96_question_alone h p x T i q a s : run_of h p -> OClaim T s Fresh ∈ h -> around s = [] -> ~ during h x (OPrompt T [i] q a).
  Proof.
    intros Hr Hc Es Hd. assert (Hx : divided (place x) []) by (eapply C96_bab_itself; [exact Hr|exact Hd|reflexivity|exists s; split; [exact Hc|symmetry; exact Es]]).
    destruct Hx as (? & ? & ? & ? & ? & l2 & ? & _ & _ & E). destruct l2; discriminate E.
  Qed.
  Theorem C96_undisturbed h p x ev : run_of h p -> place x = [] -> during h x ev -> has_spot ev = false.
  Proof.
    intros Hr Ex Hd. destruct (has_spot ev) eqn:He; [|reflexivity]. exfalso. destruct (inv_run k tasks root Hkeyed h p Hr) as (_ & _ & Ha).
    destruct (Ha x ev Hd He) as (v & _ & (? & ? & ? & ? & l1 & ? & ? & _ & E & _)). rewrite Ex in E. destruct l1; discriminate E.
  Qed.
End Theorems.
Print Assumptions C96_overlap.
Print Assumptions C96_same_item.
Print Assumptions C96_inside.
Print Assumptions C96_outside.
Print Assumptions C96_sequential.
Print Assumptions C96_bab_itself.
Print Assumptions C96_question_alone.
Print Assumptions C96_undisturbed.

(** ** Overlaps do happen *)
Definition ended (x : proc_info) (ev : event) : bool := match ev with OEnd T pa _ => bool_decide (T = x_task x) && bool_decide (pa = x_path x) | _ => false end.
(** Event [a] of [h] (newest first) is the start of a command while the one that started [b] events earlier runs. *)
Definition find_event (h : hist) (a b : nat) : option (proc_info * event) :=
  match drop a h with
  | ev :: r => match drop b r with OStart x true :: _ => if existsb (ended x) (take b r) then None else Some (x, ev) | _ => None end
  | _ => None
  end.
Definition find_during (h : hist) (a b : nat) : option (proc_info * proc_info) :=
  match find_event h a b with Some (x, OStart y true) => Some (x, y) | _ => None end.
Lemma find_event_sound h a b x ev : find_event h a b = Some (x, ev) -> during h x ev.
Proof.
  unfold find_event. intros H. destruct (drop a h) as [|e r] eqn:Ea; [discriminate|].
  destruct (drop b r) as [|e' r'] eqn:Eb; [discriminate|]. destruct e'; try discriminate.
  match type of H with (if ?b then _ else _) = _ => fail | match ?b with _ => _ end = _ => destruct b; try discriminate | _ => idtac end.
  destruct (existsb _ _) eqn:Ee; [discriminate|]. injection H as -> ->.
  exists (take a h), (take b r), r'. split; [rewrite <- Eb, take_drop, <- Ea, take_drop; reflexivity|]. intros ok Hin.
  assert (E : existsb (ended x) (take b r) = true); [|congruence]. apply existsb_exists. exists (OEnd (x_task x) (x_path x) ok). split; [apply elem_of_list_In; exact Hin|].
  simpl. rewrite !bool_decide_eq_true_2 by reflexivity. reflexivity.
Qed.
Lemma find_during_sound h a b x y : find_during h a b = Some (x, y) -> during h x (OStart y true).
Proof.
  unfold find_during. destruct (find_event h a b) as [[x' ev]|] eqn:E; [|discriminate]. destruct ev; try discriminate. destruct started; [|discriminate]. intros [= -> ->]. eapply find_event_sound. exact E.
Qed.
(** A block whose items are a command and a task with a block of its own. *)
Definition nested : taskmap := tm [mk "all" None [] [cmd "first"; par 0 [cmd "make"; ref "sub"]]; mk "sub" None [] [par 0 [cmd "left"; cmd "right"]]].
Definition nested_run := ran (conf false) nested (lit "all")
  [Go [] 40 fine; Do [] (MSlot 0); Go [0] 4 fine; Do [] (MSlot 1); Go [1] 40 fine; Do [1] (MSlot 0); Go [1; 0] 4 fine; Do [1] (MSlot 1); Go [1; 1] 4 fine].
Definition overlaps (h : hist) : list (str * list (str * nat * nat) * (str * list (str * nat * nat))) :=
  flat_map (fun a => flat_map (fun b => match find_during h a b with Some (x, y) => [((x_cmd x, place x), (x_cmd y, place y))] | None => [] end) (seq 0 (length h))) (seq 0 (length h)).
(** The command before the block is over; [left] and [right] overlap with [make] and with each other. *)
Example C96_met : keyed nested /\ run_of (conf false) nested (lit "all") nested_run.1 nested_run.2 /\
  overlaps nested_run.1 =
    [((lit "left", [(lit "sub", 0, 0); (lit "all", 1, 1)]), (lit "right", [(lit "sub", 0, 1); (lit "all", 1, 1)]));
     ((lit "make", [(lit "all", 1, 0)]), (lit "right", [(lit "sub", 0, 1); (lit "all", 1, 1)]));
     ((lit "make", [(lit "all", 1, 0)]), (lit "left", [(lit "sub", 0, 0); (lit "all", 1, 1)]))].
Proof.
  split; [apply keyed_by; vm_compute; reflexivity|]. split; [unfold run_of, nested_run, ran; rewrite <- surjective_pairing; apply play_run|]. vm_compute. auto.
Qed.
Example C96_overlaps : exists x y, during nested_run.1 x (OStart y true) /\ x_cmd x = lit "make" /\ x_cmd y = lit "left".
Proof.
  destruct (find_during nested_run.1 5 11) as [[x y]|] eqn:E.
  - assert (Ec : match find_during nested_run.1 5 11 with Some (x, y) => x_cmd x = lit "make" /\ x_cmd y = lit "left" | None => False end) by (vm_compute; auto).
    rewrite E in Ec. exists x, y. split; [apply (find_during_sound _ 5 11); exact E|exact Ec].
  - exfalso. assert (Ec : match find_during nested_run.1 5 11 with Some _ => true | None => false end = true) by (vm_compute; reflexivity). rewrite E in Ec. discriminate Ec.
Qed.
(** The line that introduces [sub] is written while [make] runs. *)
Example C96_bab_itself_met : existsb (fun a => existsb (fun b => match find_event nested_run.1 a b with
    | Some (x, OHeader T _ _) => bool_decide (T = lit "sub") && bool_decide (x_cmd x = lit "make") | _ => false end) (seq 0 60)) (seq 0 60) = true.
Proof. vm_compute. reflexivity. Qed.
(** The condition of [C96_sequential] is met by tasks that run more than one command. *)
Definition chain : taskmap := tm [mk "all" None ["sub"] [cmd "make"; ref "sub"; cmd "test"]; mk "sub" None [] [cmd "left"; cmd "right"]].
Definition chain_run := ran (conf false) chain (lit "all") [Go [] 80 fine].
Example C96_sequential_met : keyed chain /\ (forall T t o items, chain !! T = Some t -> RPar o items ∉ t_run t) /\
  run_of (conf false) chain (lit "all") chain_run.1 chain_run.2 /\
  omap (fun ev => match ev with OStart x true => Some (x_cmd x) | _ => None end) chain_run.1 = [lit "test"; lit "make"; lit "right"; lit "left"].
Proof.
  split; [apply keyed_by; vm_compute; reflexivity|]. split; [|split; [unfold run_of, chain_run, ran; rewrite <- surjective_pairing; apply play_run|vm_compute; reflexivity]].
  intros T t o items Ht Hin. unfold chain, tm in Ht. apply elem_of_list_to_map_2 in Ht. cbn in Ht. rewrite !elem_of_cons, elem_of_nil in Ht.
  destruct Ht as [E|[E|[]]]; injection E as -> ->; cbn in Hin; rewrite !elem_of_cons, elem_of_nil in Hin; intuition discriminate.
Qed.
