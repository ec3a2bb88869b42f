(** Theorems about runs: C19-C30, for every task map, every schedule of the
    goroutines, every outcome of commands and prompts and every moment of
    cancellation. *)
From Verif Require Import Base Interp_Model Cond_Model Types_Model Path_Model Valid_Spec Run_Model Run_Logic Run_Spec Run_Inv Run_Proof Run_Facts
  Run_Own Run_Term Run_Seq Run_Drive.

(** ** Vocabulary of the statements *)

(** Every task is stored under its own name, as the parser does. *)
Definition keyed (tasks : taskmap) : Prop := forall n t, tasks !! n = Some t -> t_name t = n.

(** [ev] happened in the run [h], and before it [past]. *)
Definition happened (h : hist) (ev : event) (past : hist) : Prop := ev :: past `suffix_of` h.

(** What a user sees a task do at a position: start a command, ask, print a log. *)
Definition action (ev : event) : option (str * list nat) :=
  match ev with
  | OStart x _ => Some (x_task x, x_path x)
  | OPrompt t p _ _ | OLog t p _ _ _ => Some (t, p)
  | _ => None
  end.

(** The first component of a position: which item of the task. *)
Definition within_item (pa : list nat) (i : nat) : Prop := exists q, pa = i :: q.

(** Something of item [i] of [T] failed. *)
Definition failure (T : str) (i : nat) (ev : event) : Prop :=
  match ev with
  | OStart x false => x_task x = T /\ within_item (x_path x) i
  | OEnd T' pa false => T' = T /\ within_item pa i
  | OPrompt T' pa _ None => T' = T /\ within_item pa i
  | OReturn T' pa _ (Some _) => T' = T /\ within_item pa i
  | ORet T' pa (Some _) => T' = T /\ within_item pa i
  | _ => False
  end.

Lemma action_acts ev T pa : action ev = Some (T, pa) -> acts ev = Some (T, pa).
Proof. destruct ev; simpl; auto; discriminate. Qed.

Section Theorems.
  Context (k : config) (tasks : taskmap) (root : str).
  Notation dry := (k_dry k).
  Notation run_of := (run_of k tasks root).
  Notation good := (good (k_vars k) (step_ok k tasks root)).
  Context (Hkeyed : keyed tasks).

  Lemma run_good h p : run_of h p -> good h.
  Proof. intros H. apply (run_sound k tasks root Hkeyed h p H). Qed.
  Lemma happened_good h p ev past : run_of h p -> happened h ev past -> good (ev :: past).
  Proof. intros H Hh. eapply good_suffix; [exact Hh|]. eapply run_good. exact H. Qed.

  Lemma slot_return_unique h T pa j r r' : good h -> OReturn T pa j r ∈ h -> OReturn T pa j r' ∈ h -> r = r'.
  Proof.
    intros Hg H1 H2. assert (OReturn T pa j r = OReturn T pa j r'); [|congruence].
    eapply (same k tasks root); [exact Hg|exact H1|exact H2| |]; intros h2 _ [_ HB]; apply HB.
  Qed.

  (** An item that is through successfully had no failure. *)
  Lemma settled_no_failure h T t i it ev : good h -> tasks !! T = Some t -> t_run t !! i = Some it -> settled dry h T i it ->
    ev ∈ h -> failure T i ev -> False.
  Proof.
    intros Hg Ht Hit Hset Hin Hf.
    assert (Htok : exists q b, tok ev = Some (T, i :: q, b)).
    { destruct ev as [| | | | | | | | | | | | | |x [|]|? ? [|]|? ? ? [|]| | | | | |? ? [|]| | |? ? ? [|]| | |]; simpl in Hf; try contradiction;
        destruct Hf as [<- [qq Hq]]; simpl; rewrite Hq; eauto. }
    destruct Htok as (q & b & Htok).
    destruct Hset as [[Hok Hret]|(w & Hskip)].
    2:{ destruct (skip_owned k tasks root _ _ _ _ _ _ _ Hg Hskip Hin Htok) as [->|[(c & b' & ->)|(h2 & H1 & H2)]]; [exact Hf|exact Hf|].
        eapply (item_over k tasks root); [eapply good_suffix; [exact H1|exact Hg]|right; eauto|exact Htok]. }
    (* which item it was *)
    assert (Hsl : forall j, OSlot T [i] j ∈ h -> exists o items it', it = RPar o items /\ items !! j = Some it' /\ dry = false).
    { intros j Hj. destruct (good_in _ _ _ _ Hg Hj) as (h0 & _ & _ & _ & [_ HB]). destruct HB as (Hd & _ & _ & i' & o & items & it' & E & (t' & R1 & R2 & _) & R3 & _).
      injection E as <-. rewrite Ht in R1. injection R1 as <-. simpl in R2. rewrite Hit in R2. injection R2 as ->. eauto 10. }
    assert (Hbl : forall j o items it', it = RPar o items -> items !! j = Some it' -> OSlot T [i] j ∈ h ->
              OReturn T [i] j None ∈ h /\ leaf_ok dry h T [i; j] it').
    { intros j o items it' -> Hj Hs. destruct (Hsl j Hs) as (o' & items' & it'' & _ & _ & Hd). simpl in Hok. rewrite Hd in Hok.
      destruct Hok as [_ Hall]. destruct (Hall j it' Hj) as [[A B]|(c & Hc & _)]; [rewrite Hd; auto|]. exfalso.
      eapply (slot_or_giveup k tasks root); eassumption. }
    assert (Hcmd : forall x b', OStart x b' ∈ h -> x_task x = T -> within_item (x_path x) i ->
              dry = false /\ (exists x', x_task x' = T /\ x_path x' = x_path x /\ OStart x' true ∈ h) /\ OEnd T (x_path x) true ∈ h).
    { intros x b' Hx HT [q' Hq']. destruct (good_in _ _ _ _ Hg Hx) as (h0 & Hs0 & Hg0 & _ & [_ HB]). simpl in HB. pose proof (st_dry _ _ _ _ HB) as Hd.
      split; [exact Hd|]. destruct (st_what _ _ _ _ HB) as (t' & c & s & vars & te & ce & o & T1 & (t2 & R1 & R2 & _) & _).
      rewrite HT, Ht in T1. injection T1 as <-. rewrite HT, Ht in R1. injection R1 as <-. rewrite Hq' in *.
      destruct q' as [|j [|? ?]]; simpl in R2; [| |contradiction].
      - rewrite Hit in R2. injection R2 as ->. simpl in Hok. rewrite Hd in Hok. exact Hok.
      - destruct R2 as (o' & items & R2 & R3). rewrite Hit in R2. injection R2 as ->.
        destruct (st_slot _ _ _ _ HB i j Hq') as [Hs _]. rewrite HT in Hs.
        destruct (Hbl j _ _ _ eq_refl R3) as [_ Hl]; [eapply suffix_elem; [etransitivity; [apply suffix_cons_self|exact Hs0]|exact Hs]|].
        simpl in Hl. rewrite Hd in Hl. exact Hl. }
    destruct ev as [| | | | | | | | | | | | | |x [|]|T' pa [|]|T' pa q' [|]| | | | | |T' pa [e|]| | |T' pa j [e|]| | |]; simpl in Hf; try contradiction; destruct Hf as [HT Hw].
    - destruct (Hcmd x false Hin HT Hw) as (_ & (x' & E1 & E2 & Hx') & _).
      destruct (in_order _ _ _ Hx' Hin) as [E|[(h2 & H1 & H2)|(h2 & H1 & H2)]]; [discriminate| |];
        (eapply (act_once k tasks root); [eapply good_suffix; [exact H1|exact Hg]|reflexivity| |exact H2]); simpl; congruence.
    - subst T'. destruct (good_in _ _ _ _ Hg Hin) as (h0 & Hs0 & _ & _ & [_ HB]). destruct HB as [(x & E1 & E2 & Hx) _]. subst.
      destruct (Hcmd x true) as (_ & _ & He); [eapply suffix_elem; [etransitivity; [apply suffix_cons_self|exact Hs0]|exact Hx]|reflexivity|exact Hw|].
      eapply (exclude k tasks root); [exact Hg|exact Hin|exact He|discriminate| |]; intros h2 _ [_ [_ Hn]]; apply Hn.
    - subst T'. destruct (good_in _ _ _ _ Hg Hin) as (h0 & Hs0 & _ & _ & [_ HB]). destruct HB as (Hd & _ & t' & i' & p & vars & Hpa & T1 & (t2 & R1 & R2 & _) & _).
      subst pa. destruct Hw as [q'' E]. injection E as -> _. rewrite Ht in R1. injection R1 as <-. simpl in R2. rewrite Hit in R2. injection R2 as ->.
      simpl in Hok. rewrite Hd in Hok. destruct Hok as (q2 & v & Hp).
      destruct (in_order _ _ _ Hp Hin) as [E|[(h2 & H1 & H2)|(h2 & H1 & H2)]]; [discriminate| |];
        (eapply (act_once k tasks root); [eapply good_suffix; [exact H1|exact Hg]|reflexivity| |exact H2]); reflexivity.
    - subst T'. destruct (good_in _ _ _ _ Hg Hin) as (h0 & Hs0 & _ & _ & [_ HB]). destruct HB as (_ & _ & _ & _ & t' & i' & it' & -> & _).
      destruct Hw as [q'' E]. injection E as -> _.
      eapply (exclude k tasks root); [exact Hg|exact Hin|exact Hret|discriminate| |]; intros h2 _ [_ [Hn _]]; apply Hn.
    - subst T'. destruct (good_in _ _ _ _ Hg Hin) as (h0 & Hs0 & _ & _ & [_ HB]). destruct HB as (Hs & _ & _ & i' & o & items & it' & -> & (t2 & R1 & R2 & _) & R3 & _).
      destruct Hw as [q'' E]. injection E as -> _. rewrite Ht in R1. injection R1 as <-. simpl in R2. rewrite Hit in R2. injection R2 as ->.
      destruct (Hbl j _ _ _ eq_refl R3) as [Hr _]; [eapply suffix_elem; [etransitivity; [apply suffix_cons_self|exact Hs0]|exact Hs]|].
      pose proof (slot_return_unique _ _ _ _ _ _ Hg Hin Hr). discriminate.
  Qed.

  Lemma done_settled h T : good h -> ODone T ∈ h -> exists t, tasks !! T = Some t /\
    ((OSkipTask T ∈ h /\ forall ev x, ev ∈ h -> tok ev = Some x -> x.1.1 = T -> ev = OSkipTask T \/ ev = ODone T) \/
     ((forall d, d ∈ t_deps t -> ODone d ∈ h) /\ forall i it, t_run t !! i = Some it -> settled dry h T i it)).
  Proof.
    intros Hg Hd. destruct (good_in _ _ _ _ Hg Hd) as (h0 & Hs & Hg0 & _ & [Hact HB]). destruct HB as (t & Ht & HB & _). exists t. split; [exact Ht|].
    assert (Hs0 : h0 `suffix_of` h) by (etransitivity; [apply suffix_cons_self|exact Hs]).
    destruct HB as [[H1 H2]|[H1 [H2 _]]].
    - left. split; [eapply suffix_elem; eassumption|]. intros ev x Hin Hx HT.
      destruct (in_order _ _ _ Hd Hin) as [<-|[(h2 & A & B)|(h2 & A & B)]]; [right; reflexivity| |].
      + pose proof (good_suffix _ _ _ _ A Hg) as Hg2. apply good_tail in Hg2 as (Hg2 & _ & [_ (t2 & _ & [[_ Ho]|[_ Ho]] & _)]); [left; eapply Ho; eassumption|].
        (* the two completions are the same *)
        destruct A as [q1 E1]. destruct Hs as [q2 E2].
        assert (h2 = h0) as ->.
        { clear -E1 E2 Hg Hact. subst h. assert (Hu : forall q1 q2 a b, good (q1 ++ ODone T :: a) -> q1 ++ ODone T :: a = q2 ++ ODone T :: b -> a = b).
          { clear. induction q1 as [|e q1 IH]; intros q2 a b Hg E.
            - destruct q2 as [|e2 q2]; [injection E; auto|]. injection E as <- ->. simpl in Hg. apply good_tail in Hg as (Hg & _ & [Hact _]).
              specialize (Hact _ eq_refl). simpl in Hact. exfalso. assert (ODone T ∈ q2 ++ ODone T :: b) by (apply elem_of_app; right; left).
              apply (done_iff _ _ _ _ _ Hg) in H. congruence.
            - destruct q2 as [|e2 q2]; simpl in E.
              + injection E as -> E. simpl in Hg. apply good_tail in Hg as (Hg & _ & [Hact _]). specialize (Hact _ eq_refl). simpl in Hact. exfalso.
                assert (ODone T ∈ q1 ++ ODone T :: a) by (apply elem_of_app; right; left). apply (done_iff _ _ _ _ _ Hg) in H. congruence.
              + injection E as -> E. simpl in Hg. apply good_tail in Hg as (Hg & _ & _). eapply IH; eassumption. }
          symmetry. eapply Hu; [exact Hg|exact E1]. }
        left. eapply H2; eassumption.
      + exfalso. eapply (after_done k tasks root); [eapply good_suffix; [exact A|exact Hg]|exact B|exact Hx|exact HT].
    - right. split; [intros d Hin; eapply suffix_elem; [exact Hs0|auto]|]. intros i it Hi. eapply settled_mono; [exact Hs0|auto].
  Qed.

  Lemma done_no_failure h T i ev : good h -> ODone T ∈ h -> ev ∈ h -> ~ failure T i ev.
  Proof.
    intros Hg Hd Hin Hf. destruct (done_settled _ _ Hg Hd) as (t & Ht & [[_ Ho]|[_ Ho]]).
    - assert (exists x, tok ev = Some x /\ x.1.1 = T) as (x & Hx & HT).
      { destruct ev as [| | | | | | | | | | | | | |x [|]|? ? [|]|? ? ? [|]| | | | | |? ? [|]| | |? ? ? [|]| | |]; simpl in Hf; try contradiction;
          destruct Hf as [<- _]; simpl; eauto. }
      destruct (Ho _ _ Hin Hx HT) as [-> | ->]; exact Hf.
    - assert (exists it, t_run t !! i = Some it) as [it Hit].
      { assert (Hr : forall h' pa it, runs k tasks h' T pa it -> within_item pa i -> exists it, t_run t !! i = Some it).
        { intros h' pa it (t' & R1 & R2 & _) [q ->]. rewrite Ht in R1. injection R1 as <-. destruct q as [|j [|? ?]]; simpl in R2; [eauto| |contradiction].
          destruct R2 as (o & its & R2 & _). eauto. }
        destruct (good_in _ _ _ _ Hg Hin) as (h0 & Hs0 & Hg0 & _ & [_ HB]).
        destruct ev as [| | | | | | | | | | | | | |x [|]|T' pa [|]|T' pa q' [|]| | | | | |T' pa [e|]| | |T' pa j [e|]| | |]; simpl in Hf; try contradiction; destruct Hf as [HT Hw].
        - destruct (st_what _ _ _ _ HB) as (t' & c & s & vars & te & ce & o & T1 & R & _). rewrite HT in R. eapply Hr; eassumption.
        - subst T'. destruct HB as [(x & E1 & E2 & Hx) _]. destruct (good_in _ _ _ _ Hg0 Hx) as (h1 & _ & _ & _ & [_ HB]). simpl in HB.
          destruct (st_what _ _ _ _ HB) as (t' & c & s & vars & te & ce & o & T1 & R & _). rewrite E1, E2 in R. eapply Hr; eassumption.
        - subst T'. destruct HB as (_ & _ & t' & i' & p & vars & _ & _ & R & _). eapply Hr; eassumption.
        - subst T'. destruct HB as (_ & _ & _ & _ & t' & i' & it' & _ & _ & R & _). eapply Hr; eassumption.
        - subst T'. destruct HB as (_ & _ & _ & i' & o & items & it' & _ & R & _). eapply Hr; eassumption. }
      eapply settled_no_failure; [exact Hg|exact Ht|exact Hit|apply Ho; exact Hit|exact Hin|exact Hf].
  Qed.

  (** ** C19 *)
  (** No task is claimed twice, no item acts twice, and only claimed tasks act, at
      positions where they have an item. *)
  Theorem C19_claimed_once h p T sc sc' past : run_of h p -> happened h (OClaim T sc Fresh) past -> OClaim T sc' Fresh ∉ past.
  Proof.
    intros Hr Hh Hin. pose proof (happened_good _ _ _ _ Hr Hh) as Hg. apply good_tail in Hg as (_ & Ha & _). simpl in Ha.
    apply claim_claimed in Hin. congruence.
  Qed.
  Theorem C19_every_action_once h p ev ev' T pa past : run_of h p -> happened h ev past -> action ev = Some (T, pa) -> action ev' = Some (T, pa) -> ev' ∉ past.
  Proof.
    intros Hr Hh Ha Ha'. eapply (act_once k tasks root); [eapply happened_good; eassumption|apply action_acts; exact Ha|apply action_acts; exact Ha'].
  Qed.
  Theorem C19_actions_are_of_claimed_tasks h p ev T pa past : run_of h p -> happened h ev past -> action ev = Some (T, pa) ->
    (exists sc, OClaim T sc Fresh ∈ past) /\ exists t it, tasks !! T = Some t /\ item_at t pa it.
  Proof.
    intros Hr Hh Ha. pose proof (happened_good _ _ _ _ Hr Hh) as Hg. apply action_acts in Ha. split.
    - destruct (act_claim k tasks root _ _ _ Hg (acts_tok _ _ _ Ha)) as (sc & H). eauto.
    - apply good_tail in Hg as (_ & _ & HG). destruct (acts_runs k tasks root _ _ _ _ HG Ha) as (it & t & H1 & H2 & _). eauto.
  Qed.

  (** ** C20 *)
  Theorem C20_dependencies_first h p ev T pa past : run_of h p -> happened h ev past -> action ev = Some (T, pa) ->
    exists t, tasks !! T = Some t /\ forall d, d ∈ t_deps t ->
      ODone d ∈ past /\
      (* successfully: skipped as a whole, or every item through and none failed *)
      (exists td, tasks !! d = Some td /\ (OSkipTask d ∈ past \/ forall i it, t_run td !! i = Some it -> settled dry past d i it)) /\
      (forall i ev', ev' ∈ past -> ~ failure d i ev') /\
      (* all that it started has ended, and it will not start anything more *)
      (forall x, x_task x = d -> OStart x true ∈ past -> exists ok, OEnd d (x_path x) ok ∈ past) /\
      (forall ev' past' pa', happened h ev' past' -> action ev' = Some (d, pa') -> ev' ∈ past).
  Proof.
    intros Hr Hh Ha. pose proof (happened_good _ _ _ _ Hr Hh) as Hg. apply action_acts in Ha.
    pose proof Hg as Hg0. apply good_tail in Hg0 as (Hg0 & _ & HG).
    assert (exists i q, pa = i :: q) as (i & q & ->).
    { destruct (acts_runs k tasks root _ _ _ _ HG Ha) as (it & t & _ & H & _). destruct pa; [destruct H|eauto]. }
    destruct (item_needs k tasks root _ _ _ _ _ _ Hg (acts_tok _ _ _ Ha)) as (t & Ht & Hdeps & _). exists t. split; [exact Ht|].
    intros d Hd. pose proof (Hdeps d Hd) as Hdone. split; [exact Hdone|]. split; [|split; [|split]].
    - destruct (done_settled _ _ Hg0 Hdone) as (td & Htd & [[H _]|[_ H]]); exists td; (split; [exact Htd|]); auto.
    - intros i' ev' Hin. eapply done_no_failure; eassumption.
    - intros x Hx Hin. eapply (done_ended k tasks root); eassumption.
    - intros ev' past' pa' Hh' Ha'. apply action_acts in Ha'. destruct Hh as [q1 E1]. destruct Hh' as [q2 E2].
      assert (Hin : ev' ∈ past \/ ODone d ∈ past').
      { rewrite E1 in E2. clear -E2 Hdone Ha Ha'. revert q1 E2. induction q2 as [|e q2 IH]; intros q1 E.
        - destruct q1 as [|e1 q1]; simpl in E; injection E as <- E; [right; rewrite <- E; exact Hdone|]. right. rewrite <- E.
          apply elem_of_app. right. right. exact Hdone.
        - destruct q1 as [|e1 q1]; simpl in E; injection E as -> E; [left; rewrite E; apply elem_of_app; right; left|]. eapply IH. exact E. }
      destruct Hin as [Hin|Hin]; [exact Hin|]. exfalso. eapply (after_done k tasks root); [eapply (happened_good h p ev' past'); [exact Hr|exists q2; exact E2]|exact Hin|apply acts_tok; exact Ha'|reflexivity].
  Qed.

  (** ** C21 *)
  Theorem C21_earlier_items_through h p ev T i q past : run_of h p -> happened h ev past -> action ev = Some (T, i :: q) ->
    exists t, tasks !! T = Some t /\ forall i' it', i' < i -> t_run t !! i' = Some it' ->
      settled dry past T i' it' /\ forall ev', ev' ∈ past -> ~ failure T i' ev'.
  Proof.
    intros Hr Hh Ha. pose proof (happened_good _ _ _ _ Hr Hh) as Hg. apply action_acts in Ha.
    destruct (item_needs k tasks root _ _ _ _ _ _ Hg (acts_tok _ _ _ Ha)) as (t & Ht & _ & He). exists t. split; [exact Ht|].
    intros i' it' Hi Hit. split; [apply He; assumption|]. intros ev' Hin Hf. apply good_tail in Hg as (Hg & _ & _).
    eapply settled_no_failure; [exact Hg|exact Ht|exact Hit|apply He; assumption|exact Hin|exact Hf].
  Qed.
  (** An item never acts again once a later one has acted. *)
  Theorem C21_in_order h p ev ev' T i q i' q' past : run_of h p -> happened h ev past -> action ev = Some (T, i :: q) ->
    ev' ∈ past -> action ev' = Some (T, i' :: q') -> i' <= i.
  Proof.
    intros Hr Hh Ha Hin Ha'. destruct (decide (i' <= i)) as [H|H]; [exact H|exfalso].
    pose proof (happened_good _ _ _ _ Hr Hh) as Hg. apply action_acts in Ha, Ha'. pose proof Hg as Hg0. apply good_tail in Hg0 as (Hg0 & _ & HG).
    assert (exists h2, ev' :: h2 `suffix_of` past) as (h2 & Hs).
    { apply elem_of_list_split in Hin as (l1 & l2 & ->). exists l2, l1. reflexivity. }
    pose proof (good_suffix _ _ _ _ Hs Hg0) as Hg2. destruct (item_needs k tasks root _ _ _ _ _ _ Hg2 (acts_tok _ _ _ Ha')) as (t & Ht & _ & He).
    destruct (acts_runs k tasks root _ _ _ _ HG Ha) as (it & t' & H1 & H2 & _). rewrite Ht in H1. injection H1 as <-.
    assert (exists it', t_run t !! i = Some it') as [it' Hit'].
    { destruct q as [|j [|? ?]]; simpl in H2; [eauto| |contradiction]. destruct H2 as (o & its & H2 & _). eauto. }
    eapply (item_over k tasks root); [exact Hg| |exact (acts_tok _ _ _ Ha)]. eapply over_mono; [etransitivity; [apply suffix_cons_self|exact Hs]|].
    eapply settled_over. apply (He i it'); [lia|exact Hit'].
  Qed.
  Theorem C21_nothing_after_failure h p ev T i : run_of h p -> ev ∈ h -> failure T i ev ->
    ODone T ∉ h /\
    forall ev' past' i' q', happened h ev' past' -> ev ∈ past' -> action ev' = Some (T, i' :: q') -> i' <= i.
  Proof.
    intros Hr Hin Hf. pose proof (run_good _ _ Hr) as Hg. split; [intros Hd; exact (done_no_failure h T i ev Hg Hd Hin Hf)|].
    intros ev' past' i' q' Hh Hin' Ha. destruct (decide (i' <= i)) as [H|H]; [exact H|exfalso].
    destruct (C21_earlier_items_through _ _ _ _ _ _ _ Hr Hh Ha) as (t & Ht & He).
    assert (Hit : exists it, t_run t !! i = Some it).
    { pose proof (happened_good _ _ _ _ Hr Hh) as Hg2. apply good_tail in Hg2 as (_ & _ & HG). apply action_acts in Ha.
      destruct (acts_runs k tasks root _ _ _ _ HG Ha) as (it & t' & H1 & H2 & _). rewrite Ht in H1. injection H1 as <-.
      assert (Hlt : i' < length (t_run t)).
      { destruct q' as [|j [|? ?]]; simpl in H2; [apply lookup_lt_is_Some; eauto| |contradiction]. destruct H2 as (o & its & H2 & _). apply lookup_lt_is_Some; eauto. }
      apply lookup_lt_is_Some. lia. }
    destruct Hit as [it Hit]. destruct (He i it) as [_ Hn]; [lia|exact Hit|]. exact (Hn _ Hin' Hf).
  Qed.

  (** ** C22, C23 *)
  (** Success without exceptions. *)
  Definition through (h : hist) (T : str) (i : nat) (it : run_item) : Prop :=
    if dry then (exists w, OWould T [i] w ∈ h)
    else match it with
         | RPrompt _ => exists q v, OPrompt T [i] q (Some v) ∈ h
         | RPar _ items => OJoin T [i] ∈ h /\ forall j it', items !! j = Some it' -> OReturn T [i] j None ∈ h /\ leaf_ok dry h T [i; j] it'
         | _ => leaf_ok dry h T [i] it
         end.

  Theorem C22_success_ran_everything_partial h : run_of h (Ret None) -> (forall i, OCancel i ∉ h) ->
    ODone root ∈ h /\ (forall T sc, OClaim T sc Fresh ∈ h -> ODone T ∈ h) /\
    forall T, ODone T ∈ h -> exists t, tasks !! T = Some t /\
      (OSkipTask T ∈ h \/
       ((forall d, d ∈ t_deps t -> ODone d ∈ h) /\
        forall i it, t_run t !! i = Some it -> (exists w, OSkip T [i] w ∈ h) \/ through h T i it)).
  Proof.
    intros Hr Hc. pose proof (run_good _ _ Hr) as Hg. destruct (run_sound k tasks root Hkeyed h _ Hr) as [_ HQ].
    split; [exact (HQ None eq_refl)|]. split; [apply (run_success k tasks root h Hr)|].
    intros T Hd. destruct (done_settled _ _ Hg Hd) as (t & Ht & [[H _]|[H1 H2]]); exists t; (split; [exact Ht|]); [left; exact H|right].
    split; [exact H1|]. intros i it Hit. destruct (H2 i it Hit) as [[Hok _]|Hsk]; [right|left; exact Hsk].
    unfold through. destruct dry eqn:Ed; [destruct it; exact Hok|]. destruct it; try exact Hok.
    destruct Hok as [Hj Hall]. split; [exact Hj|]. intros j it' Hit'. destruct (Hall j it' Hit') as [H|(c & _ & _ & (m & _ & Hm))]; [exact H|].
    exfalso. exact (Hc m Hm).
  Qed.

  Theorem C23_failure_fails_the_run h r T pa x : run_of h (Ret r) ->
    OEnd T pa false ∈ h \/ OStart x false ∈ h -> r <> None.
  Proof.
    intros Hr Hf ->. destruct (run_success k tasks root h Hr) as [Hn _]. destruct Hf as [H|H]; exact (Hn _ H I).
  Qed.
  (** The same for prompts that got no answer and directories that are missing. *)
  Theorem C23_other_failures h r : run_of h (Ret r) ->
    (exists T pa q, OPrompt T pa q None ∈ h) \/ (exists T pa d s, s <> SDir /\ OStat T pa d s ∈ h) \/ (exists T i c, OCheck T i c true ∈ h) -> r <> None.
  Proof.
    intros Hr Hf ->. destruct (run_success k tasks root h Hr) as [Hn _]. destruct Hf as [(T & pa & q & H)|[(T & pa & d & s & Hs & H)|(T & i & c & H)]]; exact (Hn _ H ltac:(first [exact I|exact Hs])).
  Qed.

  (** ** C24 *)
  Theorem C24_no_command_after_cancellation h p x past : run_of h p -> happened h (OStart x true) past -> OCancel 0 ∉ past.
  Proof.
    intros Hr Hh Hin. pose proof (happened_good _ _ _ _ Hr Hh) as Hg. apply good_tail in Hg as (_ & Ha & [_ HB]). simpl in *.
    assert (Hc : cancelledb past (x_ctx x) = true) by (apply cancelledb_spec; exists 0; split; [apply (st_ctx _ _ _ _ HB)|exact Hin]).
    specialize (Ha Hc). discriminate.
  Qed.
  (** After a cancellation only items that had been begun before act at all. *)
  Theorem C24_no_new_item_after_cancellation h p ev T i q past past0 : run_of h p -> happened h ev past -> action ev = Some (T, i :: q) ->
    happened past (OCancel 0) past0 -> exists c, OCheck T i c false ∈ past0.
  Proof.
    intros Hr Hh Ha Hc. pose proof (happened_good _ _ _ _ Hr Hh) as Hg. apply action_acts in Ha. apply good_tail in Hg as (Hg & _ & HG).
    destruct (acts_runs k tasks root _ _ _ _ HG Ha) as (it & t & _ & _ & _ & _ & _ & c & Hch). simpl in Hch. exists c.
    assert (Hin : OCancel 0 ∈ past) by (eapply suffix_elem; [exact Hc|left]).
    destruct Hc as [l ->]. apply elem_of_app in Hch as [Hch|Hch]; [|apply elem_of_cons in Hch as [Hch|Hch]; [discriminate|exact Hch]]. exfalso.
    apply elem_of_list_split in Hch as (l1 & l2 & ->).
    assert (Hg2 : good (OCheck T i c false :: l2 ++ OCancel 0 :: past0)).
    { eapply good_suffix; [|exact Hg]. exists l1. rewrite <- app_assoc. reflexivity. }
    apply good_tail in Hg2 as (_ & Ha2 & [_ (H0 & _)]). simpl in Ha2.
    assert (cancelledb (l2 ++ OCancel 0 :: past0) c = true); [|congruence]. apply cancelledb_spec. exists 0. split; [exact H0|].
    apply elem_of_app. right. left.
  Qed.
  (** A task whose loop has seen the cancellation does nothing more. *)
  Theorem C24_nothing_after_seen h p ev T i c q past : run_of h p -> happened h ev past -> OCheck T i c true ∈ past -> action ev <> Some (T, q).
  Proof.
    intros Hr Hh Hc Ha. pose proof (happened_good _ _ _ _ Hr Hh) as Hg. apply action_acts in Ha. pose proof Hg as Hg0. apply good_tail in Hg0 as (Hg0 & _ & HG).
    destruct (acts_runs k tasks root _ _ _ _ HG Ha) as (it & t & Ht & Hat & _ & Hearl & _ & c' & Hch).
    assert (exists i' q', q = i' :: q') as (i' & q' & ->) by (destruct q; [destruct Hat|eauto]). simpl in *.
    assert (Huniq : forall c1 b1 c2 b2, OCheck T i c1 b1 ∈ past -> OCheck T i c2 b2 ∈ past -> b1 = b2).
    { intros c1 b1 c2 b2 H1 H2. assert (OCheck T i c1 b1 = OCheck T i c2 b2); [|congruence].
      eapply (same k tasks root); [exact Hg0|exact H1|exact H2| |]; intros h2 _ [_ (_ & t2 & _ & _ & _ & Hn & _)]; apply Hn. }
    destruct (good_in _ _ _ _ Hg0 Hc) as (h0 & Hs & Hgh & _ & [_ (_ & t2 & Ht2 & _ & He2 & _)]). rewrite Ht in Ht2. injection Ht2 as <-.
    destruct (lt_eq_lt_dec i' i) as [[Hlt|<-]|Hlt].
    - (* an earlier item is over *)
      assert (exists it', t_run t !! i' = Some it') as [it' Hit'].
      { destruct q' as [|j [|? ?]]; simpl in Hat; [eauto| |contradiction]. destruct Hat as (o & its & H2 & _). eauto. }
      eapply (item_over k tasks root); [exact Hg| |exact (acts_tok _ _ _ Ha)]. eapply over_mono; [etransitivity; [apply suffix_cons_self|exact Hs]|].
      eapply settled_over. apply (He2 i' it'); assumption.
    - pose proof (Huniq _ _ _ _ Hc Hch). discriminate.
    - (* a later item would need item [i] to be over *)
      assert (exists it', t_run t !! i = Some it') as [it' Hit'].
      { apply lookup_lt_is_Some. assert (i' < length (t_run t)); [|lia].
        destruct q' as [|j [|? ?]]; simpl in Hat; [apply lookup_lt_is_Some; eauto| |contradiction]. destruct Hat as (o & its & H2 & _). apply lookup_lt_is_Some; eauto. }
      pose proof (settled_over k _ _ _ _ (Hearl i it' Hlt Hit')) as Ho. destruct (checked k tasks root _ _ _ Hg0 Ho) as (c2 & Hc2).
      pose proof (Huniq _ _ _ _ Hc Hc2). discriminate.
  Qed.

  (** ** C25 *)
  Fixpoint slotted (T : str) (pa : list nat) (h : hist) : list nat :=
    match h with
    | [] => []
    | OSlot t' p' j :: r => if decide (t' = T /\ p' = pa) then j :: slotted T pa r else slotted T pa r
    | _ :: r => slotted T pa r
    end.
  Fixpoint freed (T : str) (pa : list nat) (h : hist) : list nat :=
    match h with
    | [] => []
    | OFree t' p' j :: r => if decide (t' = T /\ p' = pa) then j :: freed T pa r else freed T pa r
    | _ :: r => freed T pa r
    end.
  Lemma slotted_spec T pa h j : j ∈ slotted T pa h <-> OSlot T pa j ∈ h.
  Proof.
    induction h as [|ev h IH]; [split; intros H; inversion H|]. rewrite elem_of_cons.
    assert (Hs : (forall a b c, ev <> OSlot a b c) -> j ∈ slotted T pa (ev :: h) <-> OSlot T pa j = ev \/ OSlot T pa j ∈ h).
    { intros H. assert (slotted T pa (ev :: h) = slotted T pa h) as -> by (destruct ev; try reflexivity; exfalso; eapply H; reflexivity).
      rewrite IH. split; [auto|]. intros [E|E]; [exfalso; eapply H; symmetry; exact E|exact E]. }
    destruct ev; try (apply Hs; discriminate). simpl. destruct (decide (t = T /\ p = pa)) as [[-> ->]|Hne].
    - rewrite elem_of_cons, IH. split; intros [H|H]; [left; congruence|auto|left; congruence|auto].
    - rewrite IH. split; [auto|]. intros [H|H]; [|exact H]. exfalso. apply Hne. injection H as -> -> _. auto.
  Qed.
  Lemma freed_spec T pa h j : j ∈ freed T pa h <-> OFree T pa j ∈ h.
  Proof.
    induction h as [|ev h IH]; [split; intros H; inversion H|]. rewrite elem_of_cons.
    assert (Hs : (forall a b c, ev <> OFree a b c) -> j ∈ freed T pa (ev :: h) <-> OFree T pa j = ev \/ OFree T pa j ∈ h).
    { intros H. assert (freed T pa (ev :: h) = freed T pa h) as -> by (destruct ev; try reflexivity; exfalso; eapply H; reflexivity).
      rewrite IH. split; [auto|]. intros [E|E]; [exfalso; eapply H; symmetry; exact E|exact E]. }
    destruct ev; try (apply Hs; discriminate). simpl. destruct (decide (t = T /\ p = pa)) as [[-> ->]|Hne].
    - rewrite elem_of_cons, IH. split; intros [H|H]; [left; congruence|auto|left; congruence|auto].
    - rewrite IH. split; [auto|]. intros [H|H]; [|exact H]. exfalso. apply Hne. injection H as -> -> _. auto.
  Qed.
  Lemma slotted_nodup T pa h : good h -> NoDup (slotted T pa h).
  Proof.
    induction h as [|ev h IH]; intros Hg; [constructor|]. apply good_tail in Hg as (Hg & _ & [_ HB]). specialize (IH Hg). destruct ev; try exact IH.
    simpl. destruct (decide _) as [[-> ->]|]; [|exact IH]. constructor; [|exact IH]. rewrite slotted_spec. intros Hin.
    destruct HB as (_ & _ & Hn & _). exact (Hn _ Hin eq_refl).
  Qed.
  Lemma freed_nodup T pa h : good h -> NoDup (freed T pa h).
  Proof.
    induction h as [|ev h IH]; intros Hg; [constructor|]. apply good_tail in Hg as (Hg & _ & [_ HB]). specialize (IH Hg). destruct ev; try exact IH.
    simpl. destruct (decide _) as [[-> ->]|]; [|exact IH]. constructor; [|exact IH]. rewrite freed_spec. intros Hin.
    destruct HB as [_ Hn]. exact (Hn Hin).
  Qed.
  Lemma slotted_length T pa h : length (slotted T pa h) = slots T pa h.
  Proof. induction h as [|ev h IH]; [reflexivity|]. destruct ev; try exact IH. simpl. destruct (decide _); simpl; congruence. Qed.
  Lemma freed_length T pa h : length (freed T pa h) = frees T pa h.
  Proof. induction h as [|ev h IH]; [reflexivity|]. destruct ev; try exact IH. simpl. destruct (decide _); simpl; congruence. Qed.
  Lemma slots_bound T t i o items h : good h -> tasks !! T = Some t -> t_run t !! i = Some (RPar o items) -> (0 < q_limit o)%Z ->
    slots T [i] h <= Z.to_nat (q_limit o) + frees T [i] h.
  Proof.
    intros Hg Ht Hit Hlim. induction h as [|ev h IH]; [simpl; lia|]. apply good_tail in Hg as (Hg & _ & [_ HB]). specialize (IH Hg).
    destruct ev; try exact IH; simpl; (destruct (decide _) as [[-> ->]|]; [|exact IH]); [|lia].
    destruct HB as (_ & _ & _ & i' & o' & items' & it & E & (t' & R1 & R2 & _) & _ & Hb). injection E as <-. rewrite Ht in R1. injection R1 as <-.
    simpl in R2. rewrite Hit in R2. injection R2 as <- <-. pose proof (proj1 Hb Hlim) as Hb1. lia.
  Qed.

  (** Item [j] of block [i] of [T] is running: it has begun and is not over. *)
  Definition busy (h : hist) (T : str) (i j : nat) : Prop := OSlot T [i] j ∈ h /\ OFree T [i] j ∉ h.

  Theorem C25_limit h p T t i o items js : run_of h p -> tasks !! T = Some t -> t_run t !! i = Some (RPar o items) -> (0 < q_limit o)%Z ->
    NoDup js -> (forall j, j ∈ js -> busy h T i j) -> length js <= Z.to_nat (q_limit o).
  Proof.
    intros Hr Ht Hit Hlim Hnd Hb. pose proof (run_good _ _ Hr) as Hg. pose proof (slots_bound T t i o items h Hg Ht Hit Hlim) as Hs.
    assert (Hle : length (js ++ freed T [i] h) <= length (slotted T [i] h)).
    { apply submseteq_length, NoDup_submseteq.
      - apply NoDup_app. split; [exact Hnd|]. split; [|apply freed_nodup; exact Hg]. intros j Hj Hf. apply freed_spec in Hf. destruct (Hb j Hj) as [_ H]. contradiction.
      - intros j Hj. apply slotted_spec. apply elem_of_app in Hj as [Hj|Hj]; [apply (Hb j Hj)|]. apply freed_spec in Hj.
        apply (free_return k tasks root _ _ _ _ Hg) in Hj as (r & Hj). eapply (return_slot k tasks root); eassumption. }
    rewrite app_length, slotted_length, freed_length in Hle. lia.
  Qed.
  (** A command of an item is alive only while the item is running. *)
  Theorem C25_commands_only_while_running h p x i j : run_of h p -> x_path x = [i; j] -> OStart x true ∈ h ->
    (forall ok, OEnd (x_task x) [i; j] ok ∉ h) -> busy h (x_task x) i j.
  Proof.
    intros Hr Hp Hin Hno. pose proof (run_good _ _ Hr) as Hg. destruct (good_in _ _ _ _ Hg Hin) as (h0 & Hs & Hg0 & _ & [_ HB]). simpl in HB.
    destruct (st_slot _ _ _ _ HB i j Hp) as [Hsl Hnr].
    assert (Hs0 : h0 `suffix_of` h) by (etransitivity; [apply suffix_cons_self|exact Hs]).
    split; [eapply suffix_elem; eassumption|]. intros Hf. apply (free_return k tasks root _ _ _ _ Hg) in Hf as (r & Hret).
    destruct (in_order _ _ _ Hret Hin) as [E|[(h2 & A & B)|(h2 & A & B)]]; [discriminate| |].
    - pose proof (good_suffix _ _ _ _ A Hg) as Hg2. apply good_tail in Hg2 as (_ & _ & [_ (_ & _ & Hq & _)]). destruct (Hq x eq_refl Hp B) as (ok & Hok).
      apply (Hno ok). eapply suffix_elem; [etransitivity; [apply suffix_cons_self|exact A]|exact Hok].
    - pose proof (good_suffix _ _ _ _ A Hg) as Hg2. apply good_tail in Hg2 as (_ & _ & [_ HB2]). simpl in HB2. destruct (st_slot _ _ _ _ HB2 i j Hp) as [_ H].
      exact (H _ B).
  Qed.
  (** Without a limit every waiting item may begin, whatever the others do. *)
  Theorem C25_no_limit (o : par_opts) h T pa c chs log kk j q : (q_limit o <= 0)%Z -> chs !! j = Some (Waiting, q) ->
    exists p', pstep (Fork T pa (Z.to_nat (q_limit o)) c chs log kk) (OSlot T pa j) p' /\ allowed (k_vars k) h (OSlot T pa j).
  Proof.
    intros Hl Hj. exists (Fork T pa (Z.to_nat (q_limit o)) c (<[j := (Running, q)]> chs) log kk). split; [|exact I].
    apply ps_slot; [exact Hj|left]. destruct (q_limit o); try reflexivity; lia.
  Qed.

  (** ** C26 *)
  Theorem C26_block_result h p T t i o items r : run_of h p -> dry = false -> tasks !! T = Some t -> t_run t !! i = Some (RPar o items) ->
    ORet T [i] r ∈ h ->
    (first_failure h T [i] r /\
     forall j it, items !! j = Some it -> (exists rj, OReturn T [i] j rj ∈ h) \/ (exists c m, OGiveUp T [i] j c ∈ h /\ OCancel m ∈ h)) \/
    (* ... or a dependency of a referenced task failed before any item was begun *)
    (r <> None /\ forall j, OSlot T [i] j ∉ h).
  Proof.
    intros Hr Hd Ht Hit Hret. pose proof (run_good _ _ Hr) as Hg.
    destruct (good_in _ _ _ _ Hg Hret) as (h0 & Hs & Hg0 & _ & [_ HB]).
    destruct HB as (_ & _ & _ & _ & t' & i' & it & E & Ht' & (t2 & R1 & R2 & _) & _ & Hb). injection E as <-.
    rewrite Ht in Ht'. injection Ht' as <-. rewrite Ht in R1. injection R1 as <-. simpl in R2. rewrite Hit in R2. injection R2 as <-.
    assert (Hlater : forall l ev q b, h = l ++ ORet T [i] r :: h0 -> ev ∈ l -> tok ev = Some (T, i :: q, b) -> False).
    { intros l ev q b -> Hin Htk. apply elem_of_list_split in Hin as (l1 & l2 & ->).
      eapply (item_over k tasks root ev (l2 ++ ORet T [i] r :: h0)); [eapply good_suffix; [|exact Hg]; exists l1; rewrite <- app_assoc; reflexivity| |exact Htk].
      left. exists r. apply elem_of_app. right. left. }
    assert (Hback : forall ev q b, ev ∈ h -> tok ev = Some (T, i :: q, b) -> ev = ORet T [i] r \/ ev ∈ h0).
    { intros ev q b Hin Htk. destruct Hs as [l Hl]. rewrite Hl in Hin. apply elem_of_app in Hin as [Hin|Hin]; [exfalso; eapply Hlater; eassumption|].
      apply elem_of_cons in Hin. exact Hin. }
    assert (Hs0 : h0 `suffix_of` h) by (etransitivity; [apply suffix_cons_self|exact Hs]).
    destruct (Hb o items eq_refl) as [[Hj Hff]|(Hns & Hnj & Hne)].
    - left. split.
      + destruct Hs as [l Hl]. rewrite Hl. assert (Hx : forall l', (forall ev, ev ∈ l' -> ev ∈ l) -> first_failure (l' ++ ORet T [i] r :: h0) T [i] r).
        { induction l' as [|ev l' IH]; intros Hsub; simpl; [apply first_failure_cons; [discriminate|exact Hff]|].
          apply first_failure_cons; [|apply IH; intros e He; apply Hsub; right; exact He]. intros j e ->. eapply Hlater; [exact Hl|apply Hsub; left|reflexivity]. }
        apply Hx. auto.
      + intros j it Hit'. destruct (good_in _ _ _ _ Hg0 Hj) as (h1 & Hs1 & _ & _ & [_ HB1]). destruct HB1 as (_ & i1 & o1 & items1 & E & (t1 & R1 & R2 & _) & Hall).
        injection E as <-. rewrite Ht in R1. injection R1 as <-. simpl in R2. rewrite Hit in R2. injection R2 as <- <-.
        assert (Hs2 : h1 `suffix_of` h) by (etransitivity; [apply suffix_cons_self|etransitivity; [exact Hs1|exact Hs0]]).
        destruct (Hall j it Hit') as [(rj & H)|(c & H & (m & _ & Hm))]; [left|right].
        * exists rj. eapply suffix_elem; eassumption.
        * exists c, m. split; eapply suffix_elem; eassumption.
    - right. split; [intros E; specialize (Hne E); congruence|]. intros j Hin. destruct (Hback _ [j] true Hin eq_refl) as [E|H]; [discriminate|exact (Hns j H)].
  Qed.
  (** In particular, without cancellation: *)
  Theorem C26_every_item_and_first_failure h p T t i o items r : run_of h p -> dry = false -> (forall m, OCancel m ∉ h) ->
    tasks !! T = Some t -> t_run t !! i = Some (RPar o items) -> ORet T [i] r ∈ h -> (exists j, OSlot T [i] j ∈ h) ->
    (forall j it, items !! j = Some it -> exists rj, OReturn T [i] j rj ∈ h) /\
    (r = None <-> forall j e, OReturn T [i] j (Some e) ∉ h) /\
    (forall e, r = Some e -> exists h1 h2 j e', e = RItem j e' /\ h = h1 ++ OReturn T [i] j (Some e') :: h2 /\ forall j' e'', OReturn T [i] j' (Some e'') ∉ h2).
  Proof.
    intros Hr Hd Hc Ht Hit Hret (j0 & Hj0). destruct (C26_block_result _ _ _ _ _ _ _ _ Hr Hd Ht Hit Hret) as [[Hff Hall]|[_ H]]; [|destruct (H j0 Hj0)].
    split; [|split].
    - intros j it Hj. destruct (Hall j it Hj) as [H|(c & m & _ & H)]; [exact H|destruct (Hc m H)].
    - destruct r as [e|]; simpl in Hff; [|split; auto]. destruct Hff as (h1 & h2 & j & e' & _ & -> & _). split; [discriminate|]. intros H. exfalso.
      apply (H j e'). apply elem_of_app. right. left.
    - intros e ->. exact Hff.
  Qed.

  (** ** C27 *)
  Theorem C27_never_stuck h p : run_of h p -> (exists r, p = Ret r) \/ exists ev p', pstep p ev p' /\ allowed (k_vars k) h ev.
  Proof. intros _. apply progress. Qed.
  (** From every state the run can be brought to its end. *)
  Theorem C27_can_finish h p : run_of h p -> exists h' r, rtc (cstep (k_vars k)) (h, p) (h', Ret r) /\ run_of h' (Ret r).
  Proof.
    intros Hr. enough (exists h' r, rtc (cstep (k_vars k)) (h, p) (h', Ret r)) as (h' & r & H).
    { exists h', r. split; [exact H|]. unfold Run_Proof.run_of in *. etransitivity; eassumption. }
    clear Hr. revert h. induction (prog_acc p) as [p _ IH]. intros h. destruct (progress (k_vars k) p h) as [[r ->]|(ev & p' & H1 & H2)].
    - exists h, r. reflexivity.
    - destruct (IH p' (ex_intro _ ev H1) (ev :: h)) as (h' & r & H). exists h', r. eapply rtc_l; [apply cs_prog; eassumption|exact H].
  Qed.
  (** No infinite schedule: the goroutines cannot make infinitely many steps. *)
  Theorem C27_terminates (f : nat -> hist * prog) : f 0 = ([], run_with_tasks k tasks root) -> (forall n, cstep (k_vars k) (f n) (f (S n))) ->
    ~ (forall N, exists n ev, N <= n /\ pstep (f n).2 ev (f (S n)).2 /\ (f (S n)).1 = ev :: (f n).1).
  Proof.
    intros _ Hst Hinf. apply (no_infinite (fun n => (f n).2)).
    - intros n. specialize (Hst n). inversion Hst; subst; simpl; [right; eexists; eassumption|left; reflexivity].
    - intros N. destruct (Hinf N) as (n & ev & Hn & Hp & _). exists n. split; [exact Hn|]. eexists. exact Hp.
  Qed.
  (** The bound on the nesting of calls that the model needs is never met. *)
  Theorem C27_bound_never_met h e : run_of h (Ret (Some e)) -> reason e <> RFuel.
  Proof.
    intros Hr E. destruct (run_sound k tasks root Hkeyed h _ Hr) as [_ HQ]. specialize (HQ _ eq_refl). simpl in HQ. unfold err_ok in HQ. rewrite E in HQ. exact HQ.
  Qed.

  (** ** C28 *)
  Theorem C28_dry_run h p ev : dry = true -> run_of h p -> ev ∈ h -> action ev = None.
  Proof.
    intros Hd Hr Hin. pose proof (run_good _ _ Hr) as Hg. destruct (good_in _ _ _ _ Hg Hin) as (h0 & _ & _ & _ & [_ HB]).
    destruct ev; try reflexivity; simpl in HB; [pose proof (st_dry _ _ _ _ HB) as H|destruct HB as [H _]|destruct HB as [H _]]; congruence.
  Qed.

  (** ** C29 *)
  Theorem C29_circular_means_cyclic_partial h e c : lone tasks -> run_of h (Ret (Some e)) -> reason e = RCircular c -> cyclic tasks.
  Proof.
    intros Hl Hr E. destruct (run_sound k tasks root Hkeyed h _ Hr) as [_ HQ]. specialize (HQ _ eq_refl). simpl in HQ. unfold err_ok in HQ. rewrite E in HQ.
    destruct HQ as (n & sc & Hin). exists n. eapply (lone_claims k tasks Hl); [exact Hr|exact Hin].
  Qed.

  (** ** C30 *)
  Theorem C30_excluded_items_never_run_partial h p ev T t i q it past : run_of h p -> happened h ev past -> action ev = Some (T, i :: q) ->
    tasks !! T = Some t -> t_run t !! i = Some it ->
    (item_platforms it = [] \/ k_os k ∈ item_platforms it) /\
    (item_when it = [] \/ exists vars, sees k past t [i] vars /\ evaluate (k_getenv k) vars (item_when it) = Ok true).
  Proof.
    intros Hr Hh Ha Ht Hit. pose proof (happened_good _ _ _ _ Hr Hh) as Hg. apply action_acts in Ha. apply good_tail in Hg as (_ & _ & HG).
    destruct (acts_runs k tasks root _ _ _ _ HG Ha) as (it' & t' & H1 & _ & _ & _ & Hch & _). rewrite Ht in H1. injection H1 as <-. simpl in Hch.
    destruct (Hch it Hit) as [Hp Hw]. split; [|exact Hw]. unfold matches_platform in Hp. destruct (item_platforms it); [left; reflexivity|right].
    apply bool_decide_eq_true in Hp. exact Hp.
  Qed.
  (** A task reference that is excluded is not followed either. *)
  Theorem C30_excluded_reference_not_followed_partial h p T pa r s n st past : run_of h p -> happened h (OClaim n (FRef T pa r :: s) st) past ->
    exists t i it, tasks !! T = Some t /\ within_item pa i /\ t_run t !! i = Some it /\
      (item_platforms it = [] \/ k_os k ∈ item_platforms it) /\
      (item_when it = [] \/ exists vars, sees k past t [i] vars /\ evaluate (k_getenv k) vars (item_when it) = Ok true).
  Proof.
    intros Hr Hh. pose proof (happened_good _ _ _ _ Hr Hh) as Hg. apply good_tail in Hg as (_ & _ & [_ [HB _]]).
    destruct HB as (_ & (t & H1 & H2 & _ & _ & Hch & _) & _). exists t.
    assert (exists i q it, pa = i :: q /\ t_run t !! i = Some it) as (i & q & it & -> & Hit).
    { destruct pa as [|i [|j [|? ?]]]; simpl in H2; try contradiction; [exists i, [], (RTask r); auto|]. destruct H2 as (o & its & H2 & _). exists i, [j]. eauto. }
    exists i, it. split; [exact H1|]. split; [exists q; reflexivity|]. split; [exact Hit|]. destruct (Hch it Hit) as [Hp Hw]. split; [|exact Hw].
    unfold matches_platform in Hp. destruct (item_platforms it); [left; reflexivity|right]. apply bool_decide_eq_true in Hp. exact Hp.
  Qed.
  (** A task whose own [when] was false did nothing at all. *)
  Theorem C30_skipped_task_does_nothing h p ev T pa past : run_of h p -> happened h ev past -> action ev = Some (T, pa) -> OSkipTask T ∉ past.
  Proof.
    intros Hr Hh Ha Hin. pose proof (happened_good _ _ _ _ Hr Hh) as Hg. apply action_acts in Ha.
    assert (exists i q, pa = i :: q) as (i & q & ->).
    { pose proof Hg as Hg0. apply good_tail in Hg0 as (_ & _ & HG). destruct (acts_runs k tasks root _ _ _ _ HG Ha) as (it & t & _ & H & _). destruct pa; [destruct H|eauto]. }
    pose proof Hg as Hg0. apply good_tail in Hg0 as (Hg0 & _ & HG).
    destruct (acts_runs k tasks root _ _ _ _ HG Ha) as (it & t & _ & _ & _ & _ & _ & c & Hc). simpl in Hc.
    destruct (in_order _ _ _ Hin Hc) as [E|[(h2 & A & B)|(h2 & A & B)]]; [discriminate| |].
    - pose proof (good_suffix _ _ _ _ A Hg0) as Hg2. apply good_tail in Hg2 as (_ & _ & [_ [Ho _]]). exact (Ho _ _ B eq_refl eq_refl).
    - pose proof (good_suffix _ _ _ _ A Hg0) as Hg2. apply good_tail in Hg2 as (_ & _ & [_ (_ & t2 & _ & _ & _ & _ & _ & Hn & _)]). exact (Hn B).
  Qed.
  (** A dependency is entered for the sake of a task only if that task's own condition
      held, and after the dependencies written before it. *)
  Theorem C30_dependency_only_when_chosen h p T s n st past : run_of h p -> happened h (OClaim n (FDep T :: s) st) past ->
    exists t pre post, tasks !! T = Some t /\ t_deps t = pre ++ n :: post /\ (forall d, d ∈ pre -> ODone d ∈ past) /\
      (t_when t = [] \/ exists globals, globals_once k past globals /\ evaluate (k_getenv k) globals (t_when t) = Ok true).
  Proof.
    intros Hr Hh. pose proof (happened_good _ _ _ _ Hr Hh) as Hg. apply good_tail in Hg as (_ & _ & [_ [HB _]]).
    destruct HB as (t & pre & post & H1 & H2 & H3 & H4 & _). exists t, pre, post. auto.
  Qed.
  (** ... and a task does something only if its own condition held. *)
  Theorem C30_task_condition_held h p ev T pa past : run_of h p -> happened h ev past -> action ev = Some (T, pa) ->
    exists t, tasks !! T = Some t /\ (t_when t = [] \/ exists globals, globals_once k past globals /\ evaluate (k_getenv k) globals (t_when t) = Ok true).
  Proof.
    intros Hr Hh Ha. pose proof (happened_good _ _ _ _ Hr Hh) as Hg. apply action_acts in Ha. apply good_tail in Hg as (Hg & _ & HG).
    destruct (acts_runs k tasks root _ _ _ _ HG Ha) as (it & t & Ht & _ & _ & _ & _ & c & Hc). exists t. split; [exact Ht|].
    destruct (good_in _ _ _ _ Hg Hc) as (h0 & Hs & _ & _ & [_ (_ & t2 & Ht2 & _ & _ & _ & Hw & _)]). rewrite Ht in Ht2. injection Ht2 as <-.
    eapply task_chosen_mono; [|exact Hw]. etransitivity; [apply suffix_cons_self|exact Hs].
  Qed.
End Theorems.

(** ** Concrete runs *)
Lemma happened_at h n ev : h !! n = Some ev -> happened h ev (drop (S n) h).
Proof. intros H. exists (take n h). symmetry. apply take_drop_middle. exact H. Qed.
Lemma ran_run k tasks root l : run_of k tasks root (ran k tasks root l).1 (ran k tasks root l).2.
Proof. unfold run_of. rewrite <- surjective_pairing. apply play_run. Qed.
Definition keyedb (tasks : taskmap) : bool := forallb (fun x => bool_decide (t_name x.2 = x.1)) (map_to_list tasks).
Lemma keyed_by tasks : keyedb tasks = true -> keyed tasks.
Proof.
  intros H n t Hn. unfold keyedb in H. rewrite forallb_forall in H. specialize (H (n, t)). rewrite <- elem_of_list_In, elem_of_map_to_list in H.
  specialize (H Hn). apply bool_decide_eq_true in H. exact H.
Qed.
Definition result (p : prog) : option outcome := match p with Ret r => Some r | _ => None end.
Definition has (f : event -> bool) (h : hist) : bool := existsb f h.
Lemma has_in f h : has f h = true -> exists ev, ev ∈ h /\ f ev = true.
Proof. intros H. apply existsb_exists in H as (ev & H1 & H2). exists ev. split; [apply elem_of_list_In; exact H1|exact H2]. Qed.
Lemma has_not f h : has f h = false -> forall ev, ev ∈ h -> f ev = false.
Proof.
  intros H ev Hin. destruct (f ev) eqn:E; [|reflexivity]. exfalso. assert (has f h = true); [|congruence].
  apply existsb_exists. exists ev. split; [apply elem_of_list_In; exact Hin|exact E].
Qed.

(** A run with a dependency, a parallel block of limit 1 and a shared dependency. *)
Definition demo_tasks : taskmap := tm
  [ mk "all" None ["prep"%string] [cmd "first"; par 1 [cmd "left"; ref "lib"]; cmd "last"];
    mk "prep" None [] [cmd "p"];
    mk "lib" None ["prep"%string] [note "hello"; cmd "l"] ].
Definition demo_script : list act :=
  [Go [] 60 fine; Do [] (MSlot 1); Go [1] 60 fine; Do [] (MReturn 1); Do [] (MFree 1);
   Do [] (MSlot 0); Go [0] 60 fine; Do [] (MReturn 0); Do [] (MFree 0); Do [] MJoin; Go [] 60 fine].
Definition demo := ran (conf false) demo_tasks (lit "all") demo_script.

Definition does (T : string) (pa : list nat) (ev : event) : bool := bool_decide (action ev = Some (lit T, pa)).
Definition starts (c : string) (ev : event) : bool := match ev with OStart x true => bool_decide (x_cmd x = lit c) | _ => false end.

Example demo_keyed : keyed demo_tasks.
Proof. apply keyed_by. vm_compute. reflexivity. Qed.
Example demo_run : run_of (conf false) demo_tasks (lit "all") demo.1 demo.2.
Proof. exact (ran_run (conf false) demo_tasks (lit "all") demo_script). Qed.
Example demo_succeeds : result demo.2 = Some None.
Proof. vm_compute. reflexivity. Qed.
Lemma demo_result : demo.2 = Ret None.
Proof. vm_compute. reflexivity. Qed.
(** The positions of the six commands, in the order they were started. *)
Example demo_order : omap (fun ev => match ev with OStart x true => Some (x_cmd x) | _ => None end) (rev demo.1) =
  map lit ["p"; "first"; "l"; "left"; "last"]%string.
Proof. vm_compute. reflexivity. Qed.

(** Hypotheses of C19-C21, C24, C30 are met: in [demo] the command of [lib] is
    started when its dependency and its first item are done. *)
Fixpoint first_at (f : event -> bool) (h : hist) : hist := match h with [] => [] | ev :: r => if f ev then h else first_at f r end.
Lemma first_happened f h ev past : first_at f h = ev :: past -> happened h ev past /\ f ev = true.
Proof.
  induction h as [|e h IH]; simpl; [discriminate|]. destruct (f e) eqn:E.
  - intros H. injection H as -> ->. split; [exists []; reflexivity|exact E].
  - intros H. destruct (IH H) as [H1 H2]. split; [apply suffix_cons_r; exact H1|exact H2].
Qed.
Lemma occurs f h (g : hist -> bool) : match first_at f h with [] => false | _ :: past => g past end = true ->
  exists ev past, happened h ev past /\ f ev = true /\ g past = true.
Proof.
  destruct (first_at f h) as [|ev past] eqn:E; [discriminate|]. intros H. destruct (first_happened _ _ _ _ E). eauto.
Qed.
Example C19_C20_C21_met : exists ev past, happened demo.1 ev past /\ does "lib" [1] ev = true /\
  (has (fun ev => match ev with ODone n => bool_decide (n = lit "prep") | _ => false end) past && has (does "lib" [0]) past) = true.
Proof. apply occurs. vm_compute. reflexivity. Qed.
Example C22_met : run_of (conf false) demo_tasks (lit "all") demo.1 (Ret None) /\ (forall i, OCancel i ∉ demo.1).
Proof.
  split; [rewrite <- demo_result; apply demo_run|]. intros i Hin.
  pose proof (has_not (fun ev => match ev with OCancel _ => true | _ => false end) demo.1 ltac:(vm_compute; reflexivity) _ Hin). discriminate.
Qed.

(** C23: the command of [lib] fails, and so does the run. *)
Definition bad := ran (conf false) demo_tasks (lit "all")
  [Go [] 60 fine; Do [] (MSlot 1); Go [1] 13 fine; Go [1] 60 failing; Do [] (MReturn 1); Do [] (MFree 1);
   Do [] (MSlot 0); Go [0] 60 fine; Do [] (MReturn 0); Do [] (MFree 0); Do [] MJoin; Go [] 60 fine].
Example C23_met : has (fun ev => match ev with OEnd T pa false => true | OStart _ false => true | _ => false end) bad.1 = true /\
  result bad.2 = Some (Some (RItem 1 (RCmdFailed (lit "lib") (lit "l")))) /\ has (starts "left") bad.1 = true /\ has (starts "last") bad.1 = false.
Proof. vm_compute. auto. Qed.

(** C21: the first item fails: nothing of the task follows, the run fails. *)
Definition bad1 := ran (conf false) demo_tasks (lit "all") [Go [] 17 fine; Go [] 60 failing].
Example C21_met : exists ev, ev ∈ bad1.1 /\ failure (lit "all") 0 ev /\ result bad1.2 = Some (Some (RCmdFailed (lit "all") (lit "first"))) /\
  has (does "all" [1]) bad1.1 = false.
Proof.
  assert (H : has (fun ev => match ev with OStart x false => bool_decide (x_task x = lit "all" /\ x_path x = [0]) | _ => false end) bad1.1 = true)
    by (vm_compute; reflexivity).
  apply has_in in H as (ev & Hin & E). exists ev. split; [exact Hin|]. split; [|vm_compute; auto].
  destruct ev as [| | | | | | | | | | | | | |x [|]| | | | | | | | | | | | | |]; try (exfalso; exact (Bool.diff_false_true E)).
  apply bool_decide_eq_true in E as [A B]. split; [exact A|]. exists []. exact B.
Qed.

(** C24: cancelled while [first] runs. The command may still end well, but the next
    item sees the cancellation and the run fails. *)
Definition cut := ran (conf false) demo_tasks (lit "all") [Go [] 19 fine; Cancel 0; Go [] 60 fine].
Example C24_met : result cut.2 = Some (Some RCancelled) /\
  has (fun ev => match ev with OCheck T 1 _ true => bool_decide (T = lit "all") | _ => false end) cut.1 = true.
Proof. vm_compute. auto. Qed.
(** An item of a block that was begun before may act after the cancellation (a log
    line), but not start a command. *)
Definition cut2_tasks : taskmap := tm [mk "all" None [] [par 0 [note "one"; cmd "two"]]].
Definition cut2 := ran (conf false) cut2_tasks (lit "all")
  [Go [] 60 fine; Do [] (MSlot 0); Do [] (MSlot 1); Cancel 0; Go [0] 60 fine; Go [1] 60 fine].
Example C24_met_late : exists ev past, happened cut2.1 ev past /\ does "all" [0; 0] ev = true /\
  has (fun ev => match ev with OCancel 0 => true | _ => false end) past = true.
Proof. apply occurs. vm_compute. reflexivity. Qed.

(** C25: two of three items run at once under limit 2; the third has to wait. *)
Definition trio : taskmap := tm [mk "all" None [] [par 2 [cmd "a"; cmd "b"; cmd "c"]]].
Definition two := ran (conf false) trio (lit "all") [Go [] 60 fine; Do [] (MSlot 2); Do [] (MSlot 0); Do [] (MSlot 1); Go [0] 4 fine].
Example C25_met : busy two.1 (lit "all") 0 2 /\ busy two.1 (lit "all") 0 0 /\
  has (fun ev => match ev with OSlot _ _ 1 => true | _ => false end) two.1 = false /\ has (starts "a") two.1 = true.
Proof.
  assert (Hb : forall j, has (fun ev => match ev with OSlot T pa j' => bool_decide (T = lit "all" /\ pa = [0] /\ j' = j) | _ => false end) two.1 = true ->
                 has (fun ev => match ev with OFree _ _ _ => true | _ => false end) two.1 = false -> busy two.1 (lit "all") 0 j).
  { intros j H1 H2. split.
    - apply has_in in H1 as (ev & H1 & E). destruct ev; try discriminate E. apply bool_decide_eq_true in E as (-> & -> & ->). exact H1.
    - intros Hin. pose proof (has_not _ _ H2 _ Hin) as H. discriminate H. }
  split; [apply Hb; vm_compute; reflexivity|]. split; [apply Hb; vm_compute; reflexivity|]. vm_compute. auto.
Qed.

(** C26: item 1 fails first, then item 0; item 2 still runs; the error is item 1's. *)
Definition both := ran (conf false) (tm [mk "all" None [] [par 0 [cmd "a"; cmd "b"; cmd "c"]]]) (lit "all")
  [Go [] 60 fine; Do [] (MSlot 0); Do [] (MSlot 1); Do [] (MSlot 2); Go [0] 3 fine; Go [1] 60 failing; Do [] (MReturn 1); Do [] (MFree 1);
   Go [0] 60 failing; Do [] (MReturn 0); Do [] (MFree 0); Go [2] 60 fine; Do [] (MReturn 2); Do [] (MFree 2); Do [] MJoin; Go [] 60 fine].
Example C26_met : result both.2 = Some (Some (RItem 1 (RCmdFailed (lit "all") (lit "b")))) /\
  has (fun ev => match ev with ORet _ [0] (Some (RItem 1 _)) => true | _ => false end) both.1 = true /\ has (starts "c") both.1 = true /\
  has (fun ev => match ev with OCancel _ => true | _ => false end) both.1 = false.
Proof. vm_compute. auto. Qed.
(** The other case: a dependency of a referenced task fails before any item begins. *)
Definition early := ran (conf false) (tm [mk "all" None [] [par 0 [cmd "a"; ref "lib"]]; mk "lib" None ["dep"%string] [cmd "l"]; mk "dep" None [] [cmd "d"]]) (lit "all")
  [Go [] 11 fine; Go [] 60 failing].
Example C26_met_early : result early.2 = Some (Some (RPreDep (lit "dep") (RCmdFailed (lit "dep") (lit "d")))) /\
  has (fun ev => match ev with OSlot _ _ _ => true | _ => false end) early.1 = false.
Proof. vm_compute. auto. Qed.

(** C28: the same tasks in a dry run: five things would be done, none is. *)
Definition dried := ran (conf true) demo_tasks (lit "all") [Go [] 200 fine].
Example C28_met : result dried.2 = Some None /\ length (List.filter (fun ev => match ev with OWould _ _ _ => true | _ => false end) dried.1) = 4.
Proof. vm_compute. auto. Qed.

(** C29: a real cycle is reported. *)
Definition loop_tasks : taskmap := tm [mk "a" None ["b"%string] [cmd "x"]; mk "b" None [] [ref "a"]].
Example C29_met : lone loop_tasks /\
  result (ran (conf false) loop_tasks (lit "a") [Go [] 60 fine]).2 = Some (Some (RDep (lit "b") (RCircular [lit "a"; lit "b"]))).
Proof.
  split; [|vm_compute; reflexivity]. intros n t i ? ? ? Ht Hin _.
  assert (t = mk "b" None [] [ref "a"] \/ t = mk "a" None ["b"%string] [cmd "x"]) as [-> | ->].
  { apply elem_of_list_to_map_2, elem_of_list_In in Ht. simpl in Ht. destruct Ht as [[= _ <-]|[[= _ <-]|[]]]; auto. }
  - destruct i as [|[]]; discriminate Hin.
  - destruct i as [|[]]; discriminate Hin.
Qed.

(** C30: an item for another system is left out, a later one runs. *)
Definition win (s : string) : run_item := RCmd (CmdRun 1 (lit s) [] None None None [lit "windows"] []).
Example C30_met : let r := ran (conf false) (tm [mk "all" None [] [win "a"; cmd "b"]]) (lit "all") [Go [] 60 fine] in
  result r.2 = Some None /\ has (starts "a") r.1 = false /\ has (starts "b") r.1 = true.
Proof. vm_compute. auto. Qed.

(** ** Where the full claims fail *)

(** C22 without the condition on cancellation: an item that waits for a slot when
    the run is cancelled is left out, and the run still succeeds. *)
Definition lost_tasks : taskmap := tm [mk "all" None [] [par 1 [cmd "a"; cmd "b"]]].
Definition lost := ran (conf false) lost_tasks (lit "all")
  [Go [] 60 fine; Do [] (MSlot 0); Go [0] 4 fine; Cancel 0; Do [] (MGiveUp 1); Go [0] 60 fine; Do [] (MReturn 0); Do [] (MFree 0); Do [] MJoin; Go [] 60 fine].
Theorem C22_refuted : exists k tasks root h t o items c, keyed tasks /\ run_of k tasks root h (Ret None) /\ k_dry k = false /\
  tasks !! root = Some t /\ t_run t = [RPar o items] /\ items !! 1 = Some (RCmd c) /\ item_platforms (RCmd c) = [] /\ item_when (RCmd c) = [] /\
  forall x b, x_path x = [0; 1] -> OStart x b ∉ h.
Proof.
  exists (conf false), lost_tasks, (lit "all"), lost.1. do 4 eexists. split; [apply keyed_by; vm_compute; reflexivity|].
  split; [replace (Ret None) with lost.2 by (vm_compute; reflexivity); exact (ran_run (conf false) lost_tasks (lit "all") _)|]. split; [reflexivity|].
  split; [vm_compute; reflexivity|]. split; [reflexivity|]. split; [reflexivity|]. split; [reflexivity|]. split; [reflexivity|].
  intros x b Hx Hin.
  assert (Hno : has (fun ev => match ev with OStart x _ => bool_decide (x_path x = [0; 1]) | _ => false end) lost.1 = false) by (vm_compute; reflexivity).
  pose proof (has_not _ _ Hno _ Hin) as H. simpl in H. rewrite bool_decide_eq_true_2 in H by exact Hx. discriminate H.
Qed.

From Verif Require Valid_Model Vars_Proof Valid_Proof.

(** C29 with task references inside a block: two branches need the same task. *)
Definition shared_tasks : taskmap := tm [mk "all" None [] [par 0 [ref "a"; ref "b"]]; mk "a" None [] [cmd "x"]; mk "b" None [] [ref "a"]].
Definition shared := ran (conf false) shared_tasks (lit "all")
  [Go [] 60 fine; Do [] (MSlot 0); Do [] (MSlot 1); Go [0] 4 fine; Go [1] 60 fine; Do [] (MReturn 1); Do [] (MFree 1);
   Go [0] 60 fine; Do [] (MReturn 0); Do [] (MFree 0); Do [] MJoin; Go [] 60 fine].
Theorem C29_refuted : exists k tasks root h e, keyed tasks /\ ~ cyclic tasks /\ run_of k tasks root h (Ret (Some e)) /\ reason e = RCircular [lit "a"].
Proof.
  exists (conf false), shared_tasks, (lit "all"), shared.1, (RItem 1 (RCircular [lit "a"])). split; [apply keyed_by; vm_compute; reflexivity|].
  split; [|split; [|reflexivity]].
  - assert (Ho : Vars_Proof.iteration_order shared_tasks [lit "all"; lit "a"; lit "b"]) by (apply (bool_decide_unpack _); vm_compute; exact I).
    rewrite <- (Valid_Proof.cycles_iff Valid_Model.go_grow shared_tasks _ Ho). vm_compute. auto.
  - replace (Ret (Some (RItem 1 (RCircular [lit "a"])))) with shared.2 by (vm_compute; reflexivity).
    exact (ran_run (conf false) shared_tasks (lit "all") _).
Qed.

(** C30 for items of a block: their [platforms] and [when] are not looked at. *)
Definition kids_tasks : taskmap := tm [mk "all" None [] [par 0 [win "a"; RCmd (CmdRun 1 (lit "b") [] None None None [] (lit "false"))]]].
Definition kids := ran (conf false) kids_tasks (lit "all") [Go [] 60 fine; Do [] (MSlot 0); Go [0] 60 fine; Do [] (MSlot 1); Go [1] 60 fine].
Theorem C30_refuted : exists k tasks root h p t o items c0 c1 x0 x1, keyed tasks /\ run_of k tasks root h p /\ tasks !! root = Some t /\
  t_run t = [RPar o items] /\ items = [RCmd c0; RCmd c1] /\
  k_os k ∉ item_platforms (RCmd c0) /\ item_platforms (RCmd c0) <> [] /\
  (forall getenv vars, evaluate getenv vars (item_when (RCmd c1)) = Ok false) /\
  OStart x0 true ∈ h /\ x_path x0 = [0; 0] /\ OStart x1 true ∈ h /\ x_path x1 = [0; 1].
Proof.
  exists (conf false), kids_tasks, (lit "all"), kids.1, kids.2. do 5 eexists.
  assert (H0 : has (fun ev => match ev with OStart x true => bool_decide (x_path x = [0; 0]) | _ => false end) kids.1 = true) by (vm_compute; reflexivity).
  apply has_in in H0 as (e0 & H0 & E0).
  assert (H1 : has (fun ev => match ev with OStart x true => bool_decide (x_path x = [0; 1]) | _ => false end) kids.1 = true) by (vm_compute; reflexivity).
  apply has_in in H1 as (e1 & H1 & E1).
  destruct e0 as [| | | | | | | | | | | | | |x0 [|]| | | | | | | | | | | | | |]; try discriminate E0.
  destruct e1 as [| | | | | | | | | | | | | |x1 [|]| | | | | | | | | | | | | |]; try discriminate E1.
  apply bool_decide_eq_true in E0, E1. exists x0, x1. split; [apply keyed_by; vm_compute; reflexivity|]. split; [exact (ran_run (conf false) kids_tasks (lit "all") _)|].
  split; [vm_compute; reflexivity|]. split; [reflexivity|]. split; [reflexivity|]. split; [vm_compute; intros H; inversion H as [|? ? ? H']; inversion H'|].
  split; [discriminate|]. split; [reflexivity|]. auto.
Qed.

Print Assumptions C19_claimed_once. Print Assumptions C19_every_action_once. Print Assumptions C19_actions_are_of_claimed_tasks.
Print Assumptions C20_dependencies_first.
Print Assumptions C21_earlier_items_through. Print Assumptions C21_in_order. Print Assumptions C21_nothing_after_failure.
Print Assumptions C22_success_ran_everything_partial. Print Assumptions C22_refuted.
Print Assumptions C23_failure_fails_the_run. Print Assumptions C23_other_failures.
Print Assumptions C24_no_command_after_cancellation. Print Assumptions C24_no_new_item_after_cancellation. Print Assumptions C24_nothing_after_seen.
Print Assumptions C25_limit. Print Assumptions C25_commands_only_while_running. Print Assumptions C25_no_limit.
Print Assumptions C26_block_result. Print Assumptions C26_every_item_and_first_failure.
Print Assumptions C27_never_stuck. Print Assumptions C27_can_finish. Print Assumptions C27_terminates. Print Assumptions C27_bound_never_met.
Print Assumptions C28_dry_run.
Print Assumptions C29_circular_means_cyclic_partial. Print Assumptions C29_refuted.
Print Assumptions C30_excluded_items_never_run_partial. Print Assumptions C30_excluded_reference_not_followed_partial.
Print Assumptions C30_skipped_task_does_nothing. Print Assumptions C30_task_condition_held.
Print Assumptions C30_dependency_only_when_chosen. Print Assumptions C30_refuted.
