(** Consequences of the run invariant, about the whole of a run. *)
From Verif Require Import Base Interp_Model Cond_Model Types_Model Path_Model Run_Model Run_Logic Run_Spec Run_Inv.

Section Facts.
  Context (k : config) (tasks : taskmap) (root : str).
  Notation g := (k_vars k).
  Notation dry := (k_dry k).
  Notation G := (step_ok k tasks root).
  Notation good := (good g G).

  Lemma good_split h1 ev h2 : good (h1 ++ ev :: h2) -> good (ev :: h2).
  Proof. apply good_suffix. exists h1. reflexivity. Qed.

  (** Of two events one came first. *)
  Lemma in_order {A} (a b : A) h : a ∈ h -> b ∈ h ->
    a = b \/ (exists h2, a :: h2 `suffix_of` h /\ b ∈ h2) \/ (exists h2, b :: h2 `suffix_of` h /\ a ∈ h2).
  Proof.
    induction h as [|c h IH]; intros Ha Hb; [inversion Ha|].
    apply elem_of_cons in Ha as [->|Ha]; apply elem_of_cons in Hb as [->|Hb].
    - left. reflexivity.
    - right; left. exists h. split; [reflexivity|exact Hb].
    - right; right. exists h. split; [reflexivity|exact Ha].
    - destruct (IH Ha Hb) as [->|[(h2 & H1 & H2)|(h2 & H1 & H2)]]; [left; reflexivity|right; left|right; right];
        exists h2; (split; [apply suffix_cons_r; exact H1|exact H2]).
  Qed.

  Lemma suffix_in {A} (a : A) h2 h : a :: h2 `suffix_of` h -> a ∈ h.
  Proof. intros H. eapply suffix_elem; [exact H|left]. Qed.

  (** When [a] cannot come after [b] nor [b] after [a]. *)
  Lemma exclude a b h : good h -> a ∈ h -> b ∈ h -> a <> b ->
    (forall h2, good h2 -> G h2 a -> b ∉ h2) -> (forall h2, good h2 -> G h2 b -> a ∉ h2) -> False.
  Proof.
    intros Hg Ha Hb Hne H1 H2. destruct (in_order a b h Ha Hb) as [E|[(h2 & Hs & Hin)|(h2 & Hs & Hin)]]; [contradiction| |].
    - apply (good_suffix _ _ _ _ Hs) in Hg. apply good_tail in Hg as (Hg & _ & HG). exact (H1 h2 Hg HG Hin).
    - apply (good_suffix _ _ _ _ Hs) in Hg. apply good_tail in Hg as (Hg & _ & HG). exact (H2 h2 Hg HG Hin).
  Qed.

  Lemma same a b h : good h -> a ∈ h -> b ∈ h ->
    (forall h2, good h2 -> G h2 a -> b ∉ h2) -> (forall h2, good h2 -> G h2 b -> a ∉ h2) -> a = b.
  Proof.
    intros Hg Ha Hb H1 H2. destruct (in_order a b h Ha Hb) as [E|[(h2 & Hs & Hin)|(h2 & Hs & Hin)]]; [exact E| |]; exfalso.
    - apply (good_suffix _ _ _ _ Hs) in Hg. apply good_tail in Hg as (Hg & _ & HG). exact (H1 h2 Hg HG Hin).
    - apply (good_suffix _ _ _ _ Hs) in Hg. apply good_tail in Hg as (Hg & _ & HG). exact (H2 h2 Hg HG Hin).
  Qed.

  (** Item [i] of [T] is over. *)
  Definition over (h : hist) (T : str) (i : nat) : Prop := (exists r, ORet T [i] r ∈ h) \/ (exists w, OSkip T [i] w ∈ h).
  Lemma over_mono h h' T i : h `suffix_of` h' -> over h T i -> over h' T i.
  Proof. intros Hs [(r & H)|(w & H)]; [left|right]; eexists; eapply suffix_elem; eassumption. Qed.
  Lemma settled_over h T i it : settled dry h T i it -> over h T i.
  Proof. intros [[_ H]|H]; [left; eauto|right; exact H]. Qed.

  Lemma idle_over h T i : idle h T [i] -> over h T i -> False.
  Proof.
    intros Hi [(r & H)|(w & H)]; destruct (Hi _ H eq_refl) as [(?&?&?&E)|[(?&?&E)|[(?&?&E)|(?&?&E)]]]; discriminate.
  Qed.

  Lemma skip_owned h T i w ev q b : good h -> OSkip T [i] w ∈ h -> ev ∈ h -> tok ev = Some (T, i :: q, b) ->
    ev = OSkip T [i] w \/ (exists c b', ev = OCheck T i c b') \/ exists h2, ev :: h2 `suffix_of` h /\ OSkip T [i] w ∈ h2.
  Proof.
    intros Hg Hs Hin Htk. destruct (in_order _ _ _ Hs Hin) as [->|[(h2 & H1 & H2)|H]]; [left; reflexivity| |right; right; exact H].
    right; left. apply (good_suffix _ _ _ _ H1) in Hg. apply good_tail in Hg as (_ & _ & [_ HB]).
    destruct HB as (t & i' & it & E & _ & _ & _ & _ & _ & Hown & _). injection E as <-.
    destruct (Hown ev _ H2 Htk eq_refl _ Htk eq_refl) as (c & b' & ->). eauto.
  Qed.

  Lemma free_return h T pa j : good h -> OFree T pa j ∈ h -> exists r, OReturn T pa j r ∈ h.
  Proof.
    intros Hg Hin. destruct (good_in _ _ _ _ Hg Hin) as (h0 & Hs & _ & _ & [_ [(r & H) _]]). exists r.
    eapply suffix_elem; [|exact H]. etransitivity; [apply suffix_cons_self|exact Hs].
  Qed.
  Lemma return_slot h T pa j r : good h -> OReturn T pa j r ∈ h -> OSlot T pa j ∈ h.
  Proof.
    intros Hg Hin. destruct (good_in _ _ _ _ Hg Hin) as (h0 & Hs & _ & _ & [_ [H _]]).
    eapply suffix_elem; [|exact H]. etransitivity; [apply suffix_cons_self|exact Hs].
  Qed.

  (** What still has a slot when the item is over? Nothing. *)
  Lemma slot_over h T i j : good h -> over h T i -> OSlot T [i] j ∈ h -> OFree T [i] j ∈ h.
  Proof.
    intros Hg Ho Hsl. destruct Ho as [(r & H)|(w & H)]; destruct (in_order _ _ _ H Hsl) as [E|[(h2 & H1 & H2)|(h2 & H1 & H2)]]; try discriminate.
    - pose proof (good_suffix _ _ _ _ H1 Hg) as Hg2. apply good_tail in Hg2 as (_ & _ & [_ (_ & _ & Hf & _)]).
      eapply suffix_elem; [|apply Hf; exact H2]. etransitivity; [apply suffix_cons_self|exact H1].
    - pose proof (good_suffix _ _ _ _ H1 Hg) as Hg2. apply good_tail in Hg2 as (_ & _ & [_ (_ & Hi & _)]). exfalso.
      eapply idle_over; [exact Hi|left; eauto].
    - pose proof (good_suffix _ _ _ _ H1 Hg) as Hg2. apply good_tail in Hg2 as (_ & _ & [_ HB]). exfalso.
      destruct HB as (t & i' & it & E & _ & _ & _ & _ & _ & Hown & _). injection E as <-.
      destruct (Hown _ _ H2 eq_refl eq_refl _ eq_refl eq_refl) as (c & b' & E). discriminate.
    - pose proof (good_suffix _ _ _ _ H1 Hg) as Hg2. apply good_tail in Hg2 as (_ & _ & [_ (_ & Hi & _)]). exfalso.
      eapply idle_over; [exact Hi|right; eauto].
  Qed.

  Lemma in_slot_over h T i j : good h -> over h T i -> in_slot h T i j -> False.
  Proof.
    intros Hg Ho [H1 H2]. apply (slot_over _ _ _ _ Hg Ho) in H1. apply (free_return _ _ _ _ Hg) in H1 as (r & Hr). exact (H2 r Hr).
  Qed.

  Lemma runs_shape h T pa it : runs k tasks h T pa it -> (exists i, pa = [i]) \/ (exists i j, pa = [i; j]).
  Proof. intros (t & _ & H & _). destruct pa as [|i [|j [|? ?]]]; simpl in H; try contradiction; eauto. Qed.

  (** What is acted on at a position, at most once. *)
  Definition acts (ev : event) : option (str * list nat) :=
    match ev with
    | OStart x _ => Some (x_task x, x_path x)
    | OPrompt t p _ _ | OLog t p _ _ _ | OWould t p _ | OJoin t p => Some (t, p)
    | _ => None
    end.
  Lemma acts_tok ev T pa : acts ev = Some (T, pa) -> tok ev = Some (T, pa, false).
  Proof. destruct ev; simpl; intros H; try discriminate; injection H as -> ->; reflexivity. Qed.
  Lemma acts_idle h ev T pa : G h ev -> acts ev = Some (T, pa) -> idle h T pa.
  Proof.
    intros [_ H] Ha. destruct ev; simpl in *; try discriminate; injection Ha as <- <-; [exact (st_idle _ _ _ _ H)|apply H|apply H|apply H|apply H].
  Qed.
  Lemma acts_runs h ev T pa : G h ev -> acts ev = Some (T, pa) -> exists it, runs k tasks h T pa it.
  Proof.
    intros [_ H] Ha. destruct ev; simpl in *; try discriminate; injection Ha as <- <-.
    - destruct (st_what _ _ _ _ H) as (t & c & s & vars & te & ce & o & _ & Hr & _). eauto.
    - destruct H as (_ & _ & t' & i & pr & vars & _ & _ & Hr & _). eauto.
    - destruct H as (_ & _ & _ & t' & lg & vars & _ & Hr & _). eauto.
    - destruct H as (_ & _ & _ & Hr). destruct Hr as (t1 & it & _ & Hr & _); exists it; exact Hr.
    - destruct H as (_ & i & o & its & _ & Hr & _). eauto.
  Qed.
  Lemma acts_slot h ev T i j : G h ev -> acts ev = Some (T, [i; j]) -> in_slot h T i j.
  Proof.
    intros [_ H] Ha. destruct ev; simpl in *; try discriminate; injection Ha as E1 E2; subst.
    - apply (st_slot _ _ _ _ H). exact E2.
    - destruct H as (_ & _ & t' & i' & pr & vars & E & _). discriminate.
    - destruct H as (_ & _ & Hs & _). apply Hs. reflexivity.
    - destruct H as (_ & _ & Hs & _). apply Hs. reflexivity.
    - destruct H as (_ & i' & o & its & E & _). discriminate.
  Qed.

  Lemma act_once ev h2 ev' T pa : good (ev :: h2) -> acts ev = Some (T, pa) -> acts ev' = Some (T, pa) -> ev' ∉ h2.
  Proof.
    intros Hg Ha Ha' Hin. apply good_tail in Hg as (_ & _ & HG). pose proof (acts_idle _ _ _ _ HG Ha) as Hi.
    destruct (Hi ev' Hin (acts_tok _ _ _ Ha')) as [(?&?&?&->)|[(?&?&->)|[(?&?&->)|(?&?&->)]]]; discriminate.
  Qed.

  (** Processes have ended when their item is over. *)
  Lemma start_ended h x i : good h -> over h (x_task x) i -> head (x_path x) = Some i -> OStart x true ∈ h ->
    exists ok, OEnd (x_task x) (x_path x) ok ∈ h.
  Proof.
    intros Hg Ho Hh Hin. destruct (good_in _ _ _ _ Hg Hin) as (h0 & Hs0 & Hg0 & _ & HG0).
    assert (Ha : acts (OStart x true) = Some (x_task x, x_path x)) by reflexivity.
    pose proof (acts_runs _ _ _ _ HG0 Ha) as [it Hr]. destruct (runs_shape _ _ _ _ Hr) as [(i' & Hp)|(i' & j & Hp)].
    - rewrite Hp in *. injection Hh as ->. pose proof (acts_idle _ _ _ _ HG0 Ha) as Hi.
      destruct Ho as [(r & H)|(w & H)].
      + destruct (in_order _ _ _ H Hin) as [E|[(h2 & H1 & H2)|(h2 & H1 & H2)]]; [discriminate| |].
        * pose proof (good_suffix _ _ _ _ H1 Hg) as Hg2. apply good_tail in Hg2 as (_ & _ & [_ (_ & _ & _ & Hq & _)]).
          destruct (Hq x eq_refl Hp H2) as (ok & Hok). exists ok. eapply suffix_elem; [|exact Hok]. etransitivity; [apply suffix_cons_self|exact H1].
        * pose proof (good_suffix _ _ _ _ H1 Hg) as Hg2. apply good_tail in Hg2 as (_ & _ & HG2).
          pose proof (acts_idle _ _ _ _ HG2 Ha) as Hi2. exfalso. eapply idle_over; [exact Hi2|left; eauto].
      + exfalso. destruct (skip_owned _ _ _ _ _ [] false Hg H Hin) as [E|[(?&?&E)|(h2 & H1 & H2)]]; try discriminate; [simpl; rewrite Hp; reflexivity|].
        pose proof (good_suffix _ _ _ _ H1 Hg) as Hg2. apply good_tail in Hg2 as (_ & _ & HG2).
        pose proof (acts_idle _ _ _ _ HG2 Ha) as Hi2. eapply idle_over; [exact Hi2|right; eauto].
    - rewrite Hp in *. injection Hh as ->.
      assert (Hsl0 : in_slot h0 (x_task x) i j) by (eapply acts_slot; [exact HG0|]; simpl; rewrite Hp; reflexivity).
      assert (Hsl : OSlot (x_task x) [i] j ∈ h) by (eapply suffix_elem; [|apply Hsl0]; etransitivity; [apply suffix_cons_self|exact Hs0]).
      apply (slot_over _ _ _ _ Hg Ho) in Hsl. apply (free_return _ _ _ _ Hg) in Hsl as (r & Hret).
      destruct (in_order _ _ _ Hret Hin) as [E|[(h2 & H1 & H2)|(h2 & H1 & H2)]]; [discriminate| |].
      + pose proof (good_suffix _ _ _ _ H1 Hg) as Hg2. apply good_tail in Hg2 as (_ & _ & [_ (_ & _ & Hq & _)]).
        destruct (Hq x eq_refl Hp H2) as (ok & Hok). exists ok. eapply suffix_elem; [|exact Hok]. etransitivity; [apply suffix_cons_self|exact H1].
      + exfalso. pose proof (good_suffix _ _ _ _ H1 Hg) as Hg2. apply good_tail in Hg2 as (_ & _ & HG2).
        assert (in_slot h2 (x_task x) i j) as [_ Hno] by (eapply acts_slot; [exact HG2|]; simpl; rewrite Hp; reflexivity). exact (Hno r H2).
  Qed.

  Lemma checked h T i : good h -> over h T i -> exists c, OCheck T i c false ∈ h.
  Proof.
    intros Hg [(r & H)|(w & H)]; destruct (good_in _ _ _ _ Hg H) as (h0 & Hs & _ & _ & [_ HB]).
    - destruct HB as (_ & _ & _ & _ & t & i' & it & E & _ & (t' & _ & _ & _ & _ & _ & c & Hc) & _). injection E as <-. exists c.
      eapply suffix_elem; [|exact Hc]. etransitivity; [apply suffix_cons_self|exact Hs].
    - destruct HB as (t & i' & it & E & _ & _ & _ & _ & (c & Hc) & _). injection E as <-. exists c.
      eapply suffix_elem; [|exact Hc]. etransitivity; [apply suffix_cons_self|exact Hs].
  Qed.

  (** Nothing happens in the name of an item that is over. *)
  Lemma item_over ev h T i q b : good (ev :: h) -> over h T i -> tok ev = Some (T, i :: q, b) -> False.
  Proof.
    intros Hg0 Ho Htk. apply good_tail in Hg0 as (Hg & _ & HG). pose proof HG as [_ HB].
    assert (Hacts : acts ev = Some (T, i :: q) -> False).
    { intros Ha. destruct (acts_runs _ _ _ _ HG Ha) as [it Hr]. destruct (runs_shape _ _ _ _ Hr) as [(i' & E)|(i' & j & E)]; injection E as -> ->.
      - eapply idle_over; [eapply acts_idle; eassumption|exact Ho].
      - eapply in_slot_over; [exact Hg|exact Ho|eapply acts_slot; eassumption]. }
    destruct ev; simpl in *; try discriminate; injection Htk as E1 E2 E3; subst; try (apply Hacts; rewrite ?E2; reflexivity).
    - destruct (checked _ _ _ Hg Ho) as (c' & Hc). destruct HB as (_ & t' & _ & _ & _ & Hn & _). exact (Hn _ _ Hc).
    - destruct HB as (_ & HB). destruct HB as (Hi & i' & it & E & _); [discriminate|]. injection E as -> ->. eapply idle_over; eassumption.
    - destruct HB as (t' & i' & pr & q' & E & _ & _ & _ & Hp & Hn & _). injection E as <- ->. destruct Ho as [(r & H)|(w & H)]; [exact (Hn r H)|].
      destruct (skip_owned _ _ _ _ _ [] false Hg H Hp eq_refl) as [E|[(?&?&E)|(h2 & H1 & H2)]]; try discriminate.
      pose proof (good_suffix _ _ _ _ H1 Hg) as Hg2. apply good_tail in Hg2 as (_ & _ & HG2).
      eapply idle_over; [eapply (acts_idle _ _ _ _ HG2); reflexivity|right; eauto].
    - destruct HB as (Hi & Hsl & _ & t' & c & vars & _ & Hr & _). destruct (runs_shape _ _ _ _ Hr) as [(i' & E)|(i' & j & E)]; injection E as -> ->.
      + eapply idle_over; eassumption.
      + eapply in_slot_over; [exact Hg|exact Ho|apply Hsl; reflexivity].
    - destruct HB as (t' & i' & it & E & _ & _ & _ & _ & _ & Hown & _). injection E as <- ->.
      destruct Ho as [(r & H)|(w' & H)]; destruct (Hown _ _ H eq_refl eq_refl _ eq_refl eq_refl) as (?&?&E); discriminate.
    - destruct HB as (_ & Hi & Hsl & t' & c & s & sc & vars & _ & Hr & _). destruct (runs_shape _ _ _ _ Hr) as [(i' & E)|(i' & j & E)]; injection E as -> ->.
      + eapply idle_over; eassumption.
      + eapply in_slot_over; [exact Hg|exact Ho|apply Hsl; reflexivity].
    - destruct HB as [(x & <- & Ex & Hx) Hn]. destruct (start_ended h x i Hg Ho) as (ok' & Hok); [rewrite Ex; reflexivity|exact Hx|].
      rewrite Ex in Hok. exact (Hn _ Hok).
    - destruct HB as (Hn & Hnk & _ & _ & t' & i' & it & E & _). injection E as <- ->. destruct Ho as [(r' & H)|(w & H)]; [exact (Hn _ H)|exact (Hnk _ H)].
    - destruct HB as (_ & Hi & _ & i' & o & its & it & -> & _). injection E2 as -> <-. eapply idle_over; eassumption.
    - destruct HB as (_ & Hi & _ & i' & o & its & it & -> & _). injection E2 as -> <-. eapply idle_over; eassumption.
    - destruct HB as (Hsl & Hn & _ & i' & o & its & it & -> & _). injection E2 as -> <-.
      eapply in_slot_over; [exact Hg|exact Ho|]. split; [exact Hsl|exact Hn].
    - destruct HB as ((r & Hr) & Hn). destruct (good_in _ _ _ _ Hg Hr) as (h0 & Hs & _ & _ & [_ HR]).
      destruct HR as (_ & _ & _ & i' & o & its & it & -> & _). injection E2 as -> <-. apply Hn. eapply slot_over; [exact Hg|exact Ho|].
      eapply return_slot; eassumption.
  Qed.

  (** What was needed for an event of item [i]. *)
  Lemma item_needs ev h T i q b : good (ev :: h) -> tok ev = Some (T, i :: q, b) ->
    exists t, tasks !! T = Some t /\ deps_done h t /\ earlier k h T t i.
  Proof.
    intros Hg0 Htk. apply good_tail in Hg0 as (Hg & _ & HG). pose proof HG as [_ HB].
    assert (Hruns : forall h' p it, h' `suffix_of` h -> runs k tasks h' T (i :: p) it -> exists t, tasks !! T = Some t /\ deps_done h t /\ earlier k h T t i).
    { intros h' p it Hs Hr. apply (runs_mono _ _ _ _ _ _ _ Hs) in Hr. destruct Hr as (t & H1 & _ & H2 & H3 & _). eauto. }
    assert (Hacts : acts ev = Some (T, i :: q) -> exists t, tasks !! T = Some t /\ deps_done h t /\ earlier k h T t i).
    { intros Ha. destruct (acts_runs _ _ _ _ HG Ha) as [it Hr]. eapply Hruns; [reflexivity|exact Hr]. }
    destruct ev; simpl in *; try discriminate; injection Htk as E1 E2 E3; subst; try (apply Hacts; rewrite ?E2; reflexivity).
    - destruct HB as (_ & t' & H1 & H2 & H3 & _). eauto.
    - destruct HB as (_ & HB). destruct HB as (_ & i' & it & _ & Hr); [discriminate|]. eapply Hruns; [reflexivity|exact Hr].
    - destruct HB as (t' & i' & pr & q' & _ & _ & Hr & _). eapply Hruns; [reflexivity|exact Hr].
    - destruct HB as (_ & _ & _ & t' & c & vars & _ & Hr & _). eapply Hruns; [reflexivity|exact Hr].
    - destruct HB as (t' & i' & it & E & H1 & _ & H2 & H3 & _). injection E as <- ->. eauto.
    - destruct HB as (_ & _ & _ & t' & c & s & sc & vars & _ & Hr & _). eapply Hruns; [reflexivity|exact Hr].
    - destruct HB as [(x & <- & Ex & Hx) _]. destruct (good_in _ _ _ _ Hg Hx) as (h0 & Hs & _ & _ & HG0).
      destruct (acts_runs _ _ (x_task x) (x_path x) HG0 eq_refl) as [it Hr]. rewrite Ex in Hr.
      eapply Hruns; [etransitivity; [apply suffix_cons_self|exact Hs]|exact Hr].
    - destruct HB as (_ & _ & _ & _ & t' & i' & it & _ & _ & Hr & _). eapply Hruns; [reflexivity|exact Hr].
    - destruct HB as (_ & _ & _ & i' & o & its & it & -> & Hr & _). injection E2 as -> <-. eapply Hruns; [reflexivity|exact Hr].
    - destruct HB as (_ & _ & _ & i' & o & its & it & -> & Hr & _). injection E2 as -> <-. eapply Hruns; [reflexivity|exact Hr].
    - destruct HB as (_ & _ & _ & i' & o & its & it & -> & Hr & _). injection E2 as -> <-. eapply Hruns; [reflexivity|exact Hr].
    - destruct HB as ((r & Hret) & _). destruct (good_in _ _ _ _ Hg Hret) as (h0 & Hs & _ & _ & [_ HR]).
      destruct HR as (_ & _ & _ & i' & o & its & it & -> & Hr & _). injection E2 as -> <-.
      eapply Hruns; [etransitivity; [apply suffix_cons_self|exact Hs]|exact Hr].
  Qed.

  Lemma claim_claimed h T sc : OClaim T sc Fresh ∈ h -> status_of h T <> Fresh.
  Proof.
    intros Hin. apply elem_of_list_split in Hin as (h1 & h2 & ->). eapply status_claimed; [exists h1; reflexivity|].
    simpl. rewrite decide_True by reflexivity. discriminate.
  Qed.
  Lemma claimed_claim h T : status_of h T <> Fresh -> (exists sc, OClaim T sc Fresh ∈ h) \/ ODone T ∈ h.
  Proof.
    induction h as [|ev h IH]; simpl; [congruence|]. intros H.
    assert (IH' : status_of h T <> Fresh -> (exists sc, OClaim T sc Fresh ∈ ev :: h) \/ ODone T ∈ ev :: h).
    { intros H'. destruct (IH H') as [(sc & Hs)|Hd]; [left; exists sc; right; exact Hs|right; right; exact Hd]. }
    destruct ev; try (apply IH'; exact H).
    - destruct s; try (apply IH'; exact H). destruct (decide (n = T)) as [->|]; [left; exists sc; left|apply IH'; exact H].
    - destruct (decide (n = T)) as [->|]; [right; left|apply IH'; exact H].
  Qed.
  Lemma done_claim h T : good h -> ODone T ∈ h -> exists sc, OClaim T sc Fresh ∈ h.
  Proof.
    induction h as [|ev h IH]; intros Hg Hin; [inversion Hin|]. apply good_tail in Hg as (Hg & _ & [Hact _]).
    apply elem_of_cons in Hin as [<-|Hin].
    - specialize (Hact _ eq_refl). simpl in Hact. destruct (claimed_claim h T) as [(sc & H)|H]; [congruence|exists sc; right; exact H|].
      apply (done_iff _ _ _ _ _ Hg) in H. congruence.
    - destruct (IH Hg Hin) as (sc & H). exists sc. right. exact H.
  Qed.
  Lemma act_claim ev h x : good (ev :: h) -> tok ev = Some x -> exists sc, OClaim x.1.1 sc Fresh ∈ h.
  Proof.
    intros Hg Hx. apply good_tail in Hg as (Hg & _ & [Hact _]). specialize (Hact x Hx).
    destruct (claimed_claim h x.1.1) as [H|H]; [congruence|exact H|]. apply (done_claim _ _ Hg H).
  Qed.

  (** Nothing happens in the name of a task that is complete. *)
  Lemma after_done ev h T x : good (ev :: h) -> ODone T ∈ h -> tok ev = Some x -> x.1.1 <> T.
  Proof.
    intros Hg Hd Hx E. apply good_tail in Hg as (Hg & _ & [Hact _]). specialize (Hact x Hx). rewrite E in Hact.
    apply (done_iff _ _ _ _ _ Hg) in Hd. congruence.
  Qed.

  (** Everything a complete task started has ended. *)
  Lemma done_ended h T x : good h -> ODone T ∈ h -> x_task x = T -> OStart x true ∈ h -> exists ok, OEnd T (x_path x) ok ∈ h.
  Proof.
    intros Hg Hd HT Hin. destruct (in_order _ _ _ Hd Hin) as [E|[(h2 & H1 & H2)|(h2 & H1 & H2)]]; [discriminate| |].
    - pose proof (good_suffix _ _ _ _ H1 Hg) as Hg2. pose proof Hg2 as Hg3. apply good_tail in Hg2 as (Hg2 & _ & [_ HB]).
      destruct HB as (t & Ht & [[_ Hsk]|[_ Hset]] & _).
      { exfalso. specialize (Hsk _ _ H2 eq_refl HT). discriminate. }
      destruct (good_in _ _ _ _ Hg2 H2) as (h0 & Hs & Hg0 & _ & HG0).
      destruct (acts_runs _ _ _ _ HG0 eq_refl) as [it Hr].
      assert (exists i, head (x_path x) = Some i /\ is_Some (t_run t !! i)) as (i & Hh & it' & Hit).
      { destruct Hr as (t' & Ht' & Hat & _). rewrite HT, Ht in Ht'. injection Ht' as <-.
        destruct (x_path x) as [|i [|j [|? ?]]]; simpl in Hat; try contradiction; exists i; (split; [reflexivity|]); [eauto|].
        destruct Hat as (o & its & H & _). eauto. }
      rewrite <- HT in *. destruct (start_ended h2 x i Hg2) as (ok & Hok); [|exact Hh|exact H2|].
      + eapply settled_over. apply Hset. exact Hit.
      + exists ok. eapply suffix_elem; [|exact Hok]. etransitivity; [apply suffix_cons_self|exact H1].
    - exfalso. pose proof (good_suffix _ _ _ _ H1 Hg) as Hg2. eapply (after_done _ _ T _ Hg2 H2 eq_refl). exact HT.
  Qed.
End Facts.
