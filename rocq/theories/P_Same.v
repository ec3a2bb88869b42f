(** C86: whatever the schedule of its parallel blocks, a run that succeeds does the same
    things. Two executions of the same task are compared; neither knows of the other.
    Also C20 for the items of a block. *)
From Verif Require Import Base Interp_Model Interp_Spec Interp_Proof Interp_Escape Vars_Proof Cond_Model Types_Model Path_Model
  Run_Model Run_Logic Run_Spec Run_Inv Run_Proof Run_Facts Run_Own Run_Drive P_Run P_Run_Cmd P_Dry.

(** ** Vocabulary of the statements *)

(** The same question was answered in the same way in both runs. *)
Definition same_replies (h h' : hist) : Prop :=
  forall T pa q v q' v', OPrompt T pa q (Some v) ∈ h -> OPrompt T pa q' (Some v') ∈ h' -> v = v'.

(** What a command is: where it stands, its text, its directory, and the variables that
    were added to its environment, in any order. Whether its output is shown, and the
    hints about colours that go with that, are left out. *)
Definition same_command (environ : list str) (x x' : proc_info) : Prop :=
  x_task x = x_task x' /\ x_path x = x_path x' /\ x_cmd x = x_cmd x' /\ x_dir x = x_dir x' /\
  exists hints hints' added added', colour_hints hints /\ colour_hints hints' /\
    x_environ x = environ ++ hints ++ added /\ x_environ x' = environ ++ hints' ++ added' /\ added ≡ₚ added'.

(** The thing [ev] did in one run is also done, with success, in the run [h]. *)
Definition done_too (environ : list str) (ev : event) (h : hist) : Prop :=
  match ev with
  | OStart x _ => exists x', OStart x' true ∈ h /\ OEnd (x_task x) (x_path x) true ∈ h /\ same_command environ x x'
  | OLog T pa text level _ => exists d, OLog T pa text level d ∈ h
  | OPrompt T pa q _ => exists v, OPrompt T pa q (Some v) ∈ h
  | _ => True
  end.

(** ** Proofs *)
Section Pair.
  Context (k : config) (tasks : taskmap) (root : str) (Hdry : k_dry k = false) (Hkeyed : keyed tasks).
  Context (Hge : forall n, nul_free (k_getenv k n)) (Hv : all_nul_free (k_vars k))
    (Htv : forall T t vs, tasks !! T = Some t -> t_vars t = Some vs -> all_nul_free vs).
  Notation good := (good (k_vars k) (step_ok k tasks root)).
  Context (h1 h2 : hist) (Hg1 : good h1) (Hg2 : good h2) (Hk1 : globals_kept tasks h1) (Hk2 : globals_kept tasks h2)
    (Hsame : same_replies h1 h2).

  Lemma once_same m1 m2 : globals_once k h1 m1 -> globals_once k h2 m2 -> m1 = m2.
  Proof. intros H1 H2. apply (kept_once k tasks root h1 m1 Hk1 Hg1) in H1. apply (kept_once k tasks root h2 m2 Hk2 Hg2) in H2. congruence. Qed.

  (** A question asked in one run is not left out in the other, if both see the same. *)
  Lemma asked_chosen T t i p q a h : good h -> tasks !! T = Some t -> t_run t !! i = Some (RPrompt p) -> OPrompt T [i] q a ∈ h -> chosen k h t i.
  Proof.
    intros Hg Ht Hit Hin. destruct (good_in _ _ _ _ Hg Hin) as (h0 & Hs & _ & _ & [_ (_ & _ & t' & i' & p' & vars & E & Ht' & Hru & _)]).
    injection E as <-. assert (t' = t) as -> by congruence. destruct Hru as (t2 & T2 & _ & _ & _ & Hc & _). assert (t2 = t) as -> by congruence.
    eapply chosen_mono; [|exact Hc]. etransitivity; [apply suffix_cons_self|exact Hs].
  Qed.
  Lemma not_would T pa w h : good h -> OWould T pa w ∉ h.
  Proof. intros Hg Hin. destruct (good_in _ _ _ _ Hg Hin) as (h0 & _ & _ & _ & [_ (Hd & _)]). congruence. Qed.
End Pair.

Section Agree.
  Context (k : config) (tasks : taskmap) (root : str) (Hdry : k_dry k = false) (Hkeyed : keyed tasks).
  Context (Hge : forall n, nul_free (k_getenv k n)) (Hv : all_nul_free (k_vars k))
    (Htv : forall T t vs, tasks !! T = Some t -> t_vars t = Some vs -> all_nul_free vs).
  Notation good := (good (k_vars k) (step_ok k tasks root)).

  (** A skipped item and a chosen one do not go together. *)
  Lemma skipped_or_chosen h h' T t i w : good h -> good h' -> tasks !! T = Some t -> is_Some (t_run t !! i) ->
    (forall m m', sees k h t [i] m -> sees k h' t [i] m' -> m = m') -> chosen k h t i -> OSkip T [i] w ∈ h' -> False.
  Proof.
    intros Hg Hg' Ht [it Hit] Hag Hc Hin. destruct (good_in _ _ _ _ Hg' Hin) as (h0 & Hs & _ & _ & [_ (t' & i' & it' & E & H1 & H2 & _ & _ & _ & _ & H3)]).
    injection E as <-. assert (t' = t) as -> by congruence. assert (it' = it) as -> by congruence. destruct (Hc it Hit) as [Hp Hw]. destruct w.
    - congruence.
    - destruct H3 as (Hn & vars & H4 & H5). destruct Hw as [Hw|(vars1 & H6 & H7)]; [contradiction|].
      rewrite (Hag vars1 vars H6) in H7; [congruence|]. eapply sees_mono; [|exact H4]. etransitivity; [apply suffix_cons_self|exact Hs].
  Qed.

  Lemma vars_same h1 h2 T t i : good h1 -> good h2 -> globals_kept tasks h1 -> globals_kept tasks h2 -> same_replies h1 h2 -> tasks !! T = Some t ->
    forall m1 m2, task_vars k h1 t i m1 -> task_vars k h2 t i m2 -> m1 = m2.
  Proof.
    intros Hg1 Hg2 Hk1 Hk2 Hsame Ht. pose proof (Hkeyed _ _ Ht) as En. induction i as [|i IH]; intros m1 m2 H1 H2.
    - inversion H1 as [vs1 gl1 o1 l1 ? A1 A2 A3 A4 A5| |]; subst. inversion H2 as [vs2 gl2 o2 l2 ? B1 B2 B3 B4 B5| |]; subst.
      rewrite A1 in B1. injection B1 as <-. rewrite (once_same k tasks root h1 h2 Hg1 Hg2 Hk1 Hk2 gl1 gl2 A2 B2) in A4.
      rewrite (kept_once k tasks root h2 gl2 Hk2 Hg2 B2) in *.
      pose proof (resolve_vars_order (k_getenv k) vs1 (Some (k_vars k)) o1 o2 Hge (Htv _ _ _ Ht A1) Hv A3 B3 m1 A4). congruence.
    - assert (Hs : forall m m', sees k h1 t [i] m -> sees k h2 t [i] m' -> m = m').
      { intros m m' S1 S2. unfold sees in S1, S2. destruct (t_vars t); [eapply IH; eassumption|eapply (once_same k tasks root h1 h2); eassumption]. }
      assert (Hs' : forall m m', sees k h2 t [i] m -> sees k h1 t [i] m' -> m = m') by (intros m m' S1 S2; symmetry; eapply Hs; eassumption).
      inversion H1 as [|? n1 p1 q1 v1 A1 A2 A3|? n1 it1 A1 A2 A3]; subst; inversion H2 as [|? n2 p2 q2 v2 B1 B2 B3|? n2 it2 B1 B2 B3]; clear H1 H2; subst; try rewrite En in *.
      + rewrite A2 in B2. injection B2 as <-. rewrite (IH n1 n2 A1 B1), (Hsame _ _ _ _ _ _ A3 B3). reflexivity.
      + exfalso. rewrite A2 in B2. injection B2 as <-. destruct B3 as [B3|[(w & B3)|(w & B3)]].
        * exact (B3 p1 eq_refl).
        * eapply (skipped_or_chosen h1 h2); [exact Hg1|exact Hg2|exact Ht|eauto|exact Hs| |exact B3]. eapply (asked_chosen k tasks root); eassumption.
        * eapply (not_would k tasks root); [exact Hdry|exact Hg2|exact B3].
      + exfalso. rewrite A2 in B2. injection B2 as ->. destruct A3 as [A3|[(w & A3)|(w & A3)]].
        * exact (A3 p2 eq_refl).
        * eapply (skipped_or_chosen h2 h1); [exact Hg2|exact Hg1|exact Ht|eauto|exact Hs'| |exact A3]. eapply (asked_chosen k tasks root); eassumption.
        * eapply (not_would k tasks root); [exact Hdry|exact Hg1|exact A3].
      + eapply IH; eassumption.
  Qed.

  Section Two.
    Context (h1 h2 : hist) (Hg1 : good h1) (Hg2 : good h2) (Hk1 : globals_kept tasks h1) (Hk2 : globals_kept tasks h2)
      (Hsame : same_replies h1 h2).

    Lemma sees_same T t pa m1 m2 : tasks !! T = Some t -> sees k h1 t pa m1 -> sees k h2 t pa m2 -> m1 = m2.
    Proof.
      intros Ht. unfold sees. destruct (t_vars t); [eapply vars_same; eassumption|eapply (once_same k tasks root h1 h2); eassumption].
    Qed.
    Lemma task_unskipped T t : tasks !! T = Some t -> task_chosen k h1 t -> OSkipTask T ∉ h2.
    Proof.
      intros Ht Hc Hin. destruct (good_in _ _ _ _ Hg2 Hin) as (h0 & Hs & _ & _ & [_ (_ & t' & gl & H1 & H2 & H3 & H4)]).
      assert (t' = t) as -> by congruence. destruct Hc as [Hc|(gl1 & H5 & H6)]; [congruence|].
      rewrite (once_same k tasks root h1 h2 Hg1 Hg2 Hk1 Hk2 gl1 gl H5) in H6; [congruence|]. eapply globals_once_mono; [|exact H3]. etransitivity; [apply suffix_cons_self|exact Hs].
    Qed.

    Context (Hroot : ODone root ∈ h2) (Hnc : forall m, OCancel m ∉ h2).

    (** What is due in the first run at [pa] is through in the second, if the task is complete there. *)
    Lemma item_there T t pa it : ODone T ∈ h2 -> tasks !! T = Some t -> runs k tasks h1 T pa it ->
      match pa with [i] => item_ok false h2 T i it | [i; j] => OReturn T [i] j None ∈ h2 /\ leaf_ok false h2 T [i; j] it | _ => False end.
    Proof.
      intros Hd Ht Hru.
      assert (Htop : forall i it', t_run t !! i = Some it' -> top pa = i -> item_ok false h2 T i it').
      { intros i it' Hit <-. destruct (done_settled k tasks root _ _ Hg2 Hd) as (t' & Ht' & [[Hsk _]|[_ Hall]]).
        - destruct (task_unskipped T t Ht); [|exact Hsk]. eapply (runs_chosen k tasks root); eassumption.
        - assert (t' = t) as -> by congruence. rewrite <- Hdry. destruct (Hall _ _ Hit) as [[Hok _]|(w & Hw)]; [exact Hok|]. exfalso.
          destruct Hru as (t' & Ht'' & _ & _ & _ & Hch & _). assert (t' = t) as -> by congruence.
          eapply (skipped_or_chosen h1 h2); [exact Hg1|exact Hg2|exact Ht|eauto| |exact Hch|exact Hw]. intros m m'. apply (sees_same T t [top pa]). exact Ht. }
      destruct Hru as (t' & Ht' & Hat & _). assert (t' = t) as -> by congruence.
      destruct pa as [|i [|j [|? ?]]]; simpl in Hat; try contradiction; [apply Htop; [exact Hat|reflexivity]|].
      destruct Hat as (o & items & Hit & Hj). destruct (Htop i _ Hit eq_refl) as [_ Hall].
      destruct (Hall j it Hj) as [H|(c & _ & _ & (m & _ & Hm))]; [exact H|destruct (Hnc m Hm)].
    Qed.

    (** Every task that is entered in the first run is complete in the second. *)
    Lemma done_there_len : forall n s T st, length s < n -> OClaim T s st ∈ h1 -> ODone T ∈ h2.
    Proof.
      induction n as [|n IH]; intros s T st Hlen Hin; [lia|]. destruct (claim_facts k tasks root _ _ _ _ Hg1 Hin) as [Hc Hre].
      destruct s as [|[T'|T' pa r|T' pa o|T' pa] s']; simpl in Hlen.
      - inversion Hre; subst. exact Hroot.
      - destruct Hc as (t & pre & post & Ht & Hd & _ & Hch & Hcl). assert (Hdt : ODone T' ∈ h2) by (eapply IH; [|exact Hcl]; lia).
        destruct (done_settled k tasks root _ _ Hg2 Hdt) as (t' & Ht' & [[Hsk _]|[Hdeps _]]); [destruct (task_unskipped T' t Ht Hch Hsk)|].
        assert (t' = t) as -> by congruence. apply Hdeps. rewrite Hd. apply elem_of_app. right. left.
      - simpl in Hc. destruct Hc as (_ & Hru & -> & t & s0 & Ht & Hcl & Hsc).
        assert (Hlt : length s0 < n).
        { destruct pa as [|i [|j [|? ?]]]; simpl in Hsc; try contradiction; [subst s'; lia|]. destruct Hsc as (o & items & _ & ->). simpl in Hlen. lia. }
        assert (Hdt : ODone T' ∈ h2) by (eapply IH; [exact Hlt|exact Hcl]).
        pose proof (item_there T' t pa (RTask r) Hdt Ht Hru) as Hok. destruct pa as [|i [|j [|? ?]]]; try contradiction; [exact Hok|apply Hok].
      - destruct Hc.
      - destruct Hc as (_ & o & items & r & t' & Hru & Hr & Ht' & Hd & s0 & Hcl & ->). simpl in Hlen.
        assert (Hdt : ODone T' ∈ h2) by (eapply IH; [|exact Hcl]; lia).
        pose proof Hru as (t & Ht & Hat & _). pose proof (item_there T' t pa (RPar o items) Hdt Ht Hru) as Hok.
        destruct pa as [|i [|j [|? ?]]]; try contradiction; [|destruct Hok as [_ []]].
        destruct Hok as [_ Hall]. apply elem_of_list_lookup in Hr as (j & Hj). destruct (Hall j _ Hj) as [[Hret _]|(c & _ & _ & (m & _ & Hm))]; [|destruct (Hnc m Hm)].
        pose proof (return_slot k tasks root _ _ _ _ _ Hg2 Hret) as Hsl.
        destruct (good_in _ _ _ _ Hg2 Hsl) as (h0 & Hs & _ & _ & [_ (_ & _ & _ & i' & o' & items' & it' & E & (t2 & T2 & R2 & _) & _ & _ & Hpre)]).
        injection E as <-. assert (t2 = t) as -> by congruence. simpl in Hat, R2. rewrite Hat in R2. injection R2 as <- <-.
        eapply suffix_elem; [etransitivity; [apply suffix_cons_self|exact Hs]|]. eapply (Hpre r); [apply elem_of_list_lookup; eauto|exact Ht'|exact Hd].
    Qed.
    Lemma done_there T s st : OClaim T s st ∈ h1 -> ODone T ∈ h2.
    Proof. intros H. eapply done_there_len; [|exact H]. constructor. Qed.

    Lemma env_same vars env out1 out2 : interp_env k vars env out1 -> interp_env k vars env out2 -> out1 = out2.
    Proof.
      intros H1 H2. apply map_eq. intros n. apply (interp_env_get _ _ _ _ n) in H1, H2. destruct (env !! n); [|congruence].
      destruct H1 as (v1 & A1 & A2). destruct H2 as (v2 & B1 & B2). congruence.
    Qed.
    Lemma dir_same h h' t pa cd vars d1 d2 : dir_ok k h t pa cd vars d1 -> dir_ok k h' t pa cd vars d2 -> d1 = d2.
    Proof.
      intros [[A1 A2]|[(A1 & d & A2 & A3) _]] [[B1 B2]|[(B1 & d' & B2 & B3) _]]; [congruence|contradiction|contradiction|].
      rewrite A2 in B2. injection B2 as <-. congruence.
    Qed.

    Lemma same_there ev T pa : ev ∈ h1 -> action ev = Some (T, pa) -> done_too (k_environ k) ev h2.
    Proof.
      intros Hin Ha. assert (Hacts : acts ev = Some (T, pa)) by (apply action_acts; exact Ha).
      destruct (act_listed k tasks root _ _ _ _ Hg1 Hin Hacts) as (s & Hcl). pose proof (done_there _ _ _ Hcl) as Hd.
      destruct (good_in _ _ _ _ Hg1 Hin) as (h0 & Hs0 & _ & _ & [_ HB]).
      assert (Hs : h0 `suffix_of` h1) by (etransitivity; [apply suffix_cons_self|exact Hs0]).
      assert (Hsee : forall t, tasks !! T = Some t -> forall v1 v2 h', sees k h0 t pa v1 -> h' `suffix_of` h2 -> sees k h' t pa v2 -> v1 = v2).
      { intros t Ht v1 v2 h' H1 Hs' H2. eapply sees_same; [exact Ht| |]; (eapply sees_mono; [|eassumption]; assumption). }
      destruct ev as [| | | | | | | | | | | | | |x b| |T' pa' q a|T' pa' text lv d| | | | | | | | | | |]; try discriminate Ha; try exact I; injection Ha as E1 E2.
      - (* a command *)
        simpl. destruct (st_what _ _ _ _ HB) as (t & c & sc & vars & te & ce & od & Ht & Q1 & _ & _ & S1 & _ & I1 & V1 & C1 & O1 & X1 & D1 & _).
        rewrite E1, E2 in *. pose proof (item_there T t pa (RCmd c) Hd Ht (runs_mono _ _ _ _ _ _ _ Hs Q1)) as Hok.
        assert (Hleaf : leaf_ok false h2 T pa (RCmd c)) by (destruct pa as [|i [|j [|? ?]]]; try contradiction; [exact Hok|apply Hok]).
        destruct Hleaf as [(x' & F1 & F2 & Hst) He]. exists x'. split; [exact Hst|]. split; [exact He|].
        destruct (good_in _ _ _ _ Hg2 Hst) as (h4 & Hs4' & _ & _ & [_ HB2]).
        assert (Hs4 : h4 `suffix_of` h2) by (etransitivity; [apply suffix_cons_self|exact Hs4']).
        destruct (st_what _ _ _ _ HB2) as (t2 & c2 & s2 & vars2 & te2 & ce2 & od2 & T2 & Q2 & _ & _ & S2 & _ & I2 & V2 & C2 & O2 & X2 & D2 & _).
        rewrite F1, F2 in *. assert (t2 = t) as -> by congruence.
        assert (RCmd c2 = RCmd c) as E by (eapply item_at_fun; [eapply runs_item; eassumption|eapply runs_item; eassumption]). injection E as ->.
        pose proof (Hsee t Ht vars vars2 h4 S1 Hs4 S2) as <-.
        assert (te = te2) as <-.
        { destruct V1 as (v1 & A1 & A2). destruct V2 as (v2 & B1 & B2). assert (v1 = v2) as <-.
          { eapply (sees_same T t []); [exact Ht| |]; (eapply sees_mono; [|eassumption]; assumption). }
          eapply env_same; eassumption. }
        pose proof (env_same _ _ _ _ C1 C2) as <-.
        split; [congruence|]. split; [congruence|]. split; [congruence|]. split; [eapply dir_same; eassumption|].
        eexists _, _, (map (fun key => key ++ "="%char :: default [] (ce !! key)) od), (map (fun key => key ++ "="%char :: default [] (ce !! key)) od2).
        split; [|split; [|split; [rewrite X1; unfold command_environ; reflexivity|split; [rewrite X2; unfold command_environ; reflexivity|]]]].
        + destruct (in_block (x_scope x) && x_show x); [destruct (no_color (x_scope x))|]; constructor.
        + destruct (in_block (x_scope x') && x_show x'); [destruct (no_color (x_scope x'))|]; constructor.
        + apply Permutation_map. rewrite O1, O2. reflexivity.
      - (* a question *)
        subst T' pa'. destruct HB as (_ & _ & t & i & p & vars & -> & Ht & Q1 & S1 & I1).
        pose proof (item_there T t [i] (RPrompt p) Hd Ht (runs_mono _ _ _ _ _ _ _ Hs Q1)) as (q' & v & Hq). exists v.
        destruct (good_in _ _ _ _ Hg2 Hq) as (h4 & Hs4' & _ & _ & [_ (_ & _ & t2 & i2 & p2 & vars2 & E2 & T2 & Q2 & S2 & I2)]).
        assert (Hs4 : h4 `suffix_of` h2) by (etransitivity; [apply suffix_cons_self|exact Hs4']).
        assert (t2 = t) as -> by congruence.
        assert (RPrompt p2 = RPrompt p) as E by (eapply item_at_fun; [eapply runs_item; eassumption|eapply runs_item; eassumption]). injection E as ->.
        rewrite (Hsee t Ht vars vars2 h4 S1 Hs4 S2) in I1. assert (q = q') as -> by congruence. exact Hq.
      - (* a message *)
        subst T' pa'. destruct HB as (_ & _ & _ & t & lg & vars & Ht & Q1 & S1 & I1 & ->).
        pose proof (item_there T t pa (RLog lg) Hd Ht (runs_mono _ _ _ _ _ _ _ Hs Q1)) as Hok.
        assert (Hleaf : leaf_ok false h2 T pa (RLog lg)) by (destruct pa as [|i [|j [|? ?]]]; try contradiction; [exact Hok|apply Hok]).
        destruct Hleaf as (text' & d' & Hq). exists d'.
        destruct (good_in _ _ _ _ Hg2 Hq) as (h4 & Hs4' & _ & _ & [_ (_ & _ & _ & t2 & lg2 & vars2 & T2 & Q2 & S2 & I2 & E2)]).
        assert (Hs4 : h4 `suffix_of` h2) by (etransitivity; [apply suffix_cons_self|exact Hs4']).
        assert (t2 = t) as -> by congruence.
        assert (RLog lg2 = RLog lg) as E by (eapply item_at_fun; [eapply runs_item; eassumption|eapply runs_item; eassumption]). injection E as ->.
        rewrite (Hsee t Ht vars vars2 h4 S1 Hs4 S2) in I1. assert (text = text') as -> by congruence. exact Hq.
    Qed.
  End Two.
End Agree.

Section Theorems.
  Context (k : config) (tasks : taskmap) (root : str) (Hkeyed : keyed tasks).

  (** ** C20 for blocks *)
  (** Before anything of any item of a block is done, the dependencies of every task that
      the items of the block name are complete, also those of tasks that a condition of
      their own leaves out later. *)
  Theorem C20_block_dependencies_first h p ev T i j past : run_of k tasks root h p -> happened h ev past -> action ev = Some (T, [i; j]) ->
    exists t o items, tasks !! T = Some t /\ t_run t !! i = Some (RPar o items) /\
      forall r t' d, RTask r ∈ items -> tasks !! r_task r = Some t' -> d ∈ t_deps t' -> ODone d ∈ past.
  Proof.
    intros Hr Hh Ha. pose proof (happened_good k tasks root Hkeyed _ _ _ _ Hr Hh) as Hg. apply good_tail in Hg as (Hg & _ & [_ HB]).
    assert (Hsl : OSlot T [i] j ∈ past).
    { destruct ev as [| | | | | | | | | | | | | |x b| |T' pa' q a|T' pa' text lv d| | | | | | | | | | |]; try discriminate Ha; injection Ha as E1 E2.
      - destruct (st_slot _ _ _ _ HB i j E2) as [H _]. rewrite E1 in H. exact H.
      - destruct HB as (_ & _ & t & i' & p' & vars & E & _). congruence.
      - destruct HB as (_ & _ & H & _). destruct (H i j E2) as [H' _]. rewrite E1 in H'. exact H'. }
    destruct (good_in _ _ _ _ Hg Hsl) as (h0 & Hs & _ & _ & [_ (_ & _ & _ & i' & o & items & it & E & (t & Ht & R & _) & _ & _ & Hpre)]).
    injection E as <-. exists t, o, items. split; [exact Ht|]. split; [exact R|]. intros r t' d H1 H2 H3.
    eapply suffix_elem; [etransitivity; [apply suffix_cons_self|exact Hs]|]. eapply Hpre; eassumption.
  Qed.

  (** ** C86 *)
  Context (Hdry : k_dry k = false).
  Context (Hge : forall n, nul_free (k_getenv k n)) (Hv : all_nul_free (k_vars k))
    (Htv : forall T t vs, tasks !! T = Some t -> t_vars t = Some vs -> all_nul_free vs).

  (** Whatever some run of the task did, however far it got and however its blocks were
      scheduled: a run that succeeds, and is not cancelled, does it too. *)
  Theorem C86_success_does_all h p h' ev T pa : run_of k tasks root h p -> run_of k tasks root h' (Ret None) -> (forall m, OCancel m ∉ h') ->
    globals_kept tasks h -> globals_kept tasks h' -> same_replies h h' ->
    ev ∈ h -> action ev = Some (T, pa) -> done_too (k_environ k) ev h'.
  Proof.
    intros R1 R2 Hnc K1 K2 Hs Hin Ha.
    destruct (C22_success_ran_everything_partial k tasks root Hkeyed h' R2 Hnc) as (Hroot & _ & _).
    eapply (same_there k tasks root Hdry Hkeyed Hge Hv Htv h h'); try eassumption; eapply run_good; eassumption.
  Qed.
  (** ... and completes every task that was entered. *)
  Theorem C86_success_completes_all h p h' T s st : run_of k tasks root h p -> run_of k tasks root h' (Ret None) -> (forall m, OCancel m ∉ h') ->
    globals_kept tasks h -> globals_kept tasks h' -> same_replies h h' -> OClaim T s st ∈ h -> ODone T ∈ h'.
  Proof.
    intros R1 R2 Hnc K1 K2 Hs Hin.
    destruct (C22_success_ran_everything_partial k tasks root Hkeyed h' R2 Hnc) as (Hroot & _ & _).
    eapply (done_there k tasks root Hdry Hkeyed Hge Hv Htv h h'); try eassumption; eapply run_good; eassumption.
  Qed.
  (** Two runs that succeed act at the same places, and at each place start the same
      command, log the same message, or ask the same question. *)
  Theorem C86_same_things h h' : run_of k tasks root h (Ret None) -> run_of k tasks root h' (Ret None) ->
    (forall m, OCancel m ∉ h) -> (forall m, OCancel m ∉ h') -> globals_kept tasks h -> globals_kept tasks h' -> same_replies h h' ->
    (forall ev T pa, ev ∈ h -> action ev = Some (T, pa) -> done_too (k_environ k) ev h') /\
    (forall ev T pa, ev ∈ h' -> action ev = Some (T, pa) -> done_too (k_environ k) ev h) /\
    (forall T pa, (exists ev, ev ∈ h /\ action ev = Some (T, pa)) <-> (exists ev, ev ∈ h' /\ action ev = Some (T, pa))) /\
    (forall x x', OStart x true ∈ h -> OStart x' true ∈ h' -> x_task x = x_task x' -> x_path x = x_path x' -> same_command (k_environ k) x x').
  Proof.
    intros R1 R2 N1 N2 K1 K2 Hs. assert (Hs' : same_replies h' h) by (intros T pa q v q' v' H1 H2; symmetry; eapply Hs; eassumption).
    assert (A1 : forall ev T pa, ev ∈ h -> action ev = Some (T, pa) -> done_too (k_environ k) ev h') by (intros; eapply (C86_success_does_all h _ h'); eassumption).
    assert (A2 : forall ev T pa, ev ∈ h' -> action ev = Some (T, pa) -> done_too (k_environ k) ev h) by (intros; eapply (C86_success_does_all h' _ h); eassumption).
    assert (B : forall (g g' : hist), (forall ev T pa, ev ∈ g -> action ev = Some (T, pa) -> done_too (k_environ k) ev g') ->
      forall T pa, (exists ev, ev ∈ g /\ action ev = Some (T, pa)) -> exists ev, ev ∈ g' /\ action ev = Some (T, pa)).
    { intros g g' A T pa (ev & Hin & Ha). specialize (A _ _ _ Hin Ha).
      destruct ev as [| | | | | | | | | | | | | |x b| |T' pa' q a|T' pa' text lv d| | | | | | | | | | |]; try discriminate Ha; simpl in A.
      - destruct A as (x' & H1 & _ & (E1 & E2 & _)). exists (OStart x' true). split; [exact H1|]. simpl in Ha |- *. congruence.
      - destruct A as (v & H). exists (OPrompt T' pa' q (Some v)). auto.
      - destruct A as (d' & H). exists (OLog T' pa' text lv d'). auto. }
    split; [exact A1|]. split; [exact A2|]. split; [intros T pa; split; apply B; assumption|].
    intros x x' H1 H2 E1 E2. destruct (A1 _ _ _ H1 eq_refl) as (x2 & H3 & _ & Hc). pose proof Hc as (F1 & F2 & _).
    assert (x2 = x') as <-; [|exact Hc].
    pose proof (run_good k tasks root Hkeyed _ _ R2) as Hg.
    destruct (in_order _ _ _ H2 H3) as [E|[(h2 & A & B')|(h2 & A & B')]]; [injection E; auto| |];
      (exfalso; eapply (act_once k tasks root); [eapply good_suffix; [exact A|exact Hg]|reflexivity| |exact B']); simpl; congruence.
  Qed.
End Theorems.
Print Assumptions C20_block_dependencies_first.
Print Assumptions C86_success_does_all. Print Assumptions C86_success_completes_all. Print Assumptions C86_same_things.

(** ** Cases *)
Definition blk (w : list nat) : list act :=
  flat_map (fun j => [Do [] (MSlot j); Go [j] 200 (says (lit "v")); Do [] (MReturn j); Do [] (MFree j)]) w ++ [Do [] MJoin; Go [] 60 fine].
(** Three items, in both orders: two tasks that need the same one, one of which asks, and
    a command. *)
Definition many : taskmap := tm [mk "all" None ["prep"%string] [par 0 [ref "a"; ref "b"; cmd "z"]]; mk "prep" None [] [note "hi"];
  mk "a" (Some {[lit "x" := lit "1"]}) ["lib"%string] [ask "who"; cmd "greet ${{ who }} ${{ x }}"]; mk "b" None ["lib"%string] [cmd "b"]; mk "lib" None [] [cmd "l"]].
Definition forwards := ran (conf false) many (lit "all") (Go [] 200 fine :: blk [0; 1; 2]).
Definition rearwards := ran (conf false) many (lit "all") (Go [] 200 fine :: blk [2; 1; 0]).
Definition commands (h : hist) : list str := rev (omap (fun ev => match ev with OStart x true => Some (x_cmd x) | _ => None end) h).
Lemma kept_by tasks h : forallb (fun ev => match ev with OPrompt T _ _ (Some _) => match tasks !! T with Some t => match t_vars t with Some _ => true | None => false end | None => true end | _ => true end) h = true ->
  globals_kept tasks h.
Proof.
  intros H T pa q v t Hin Ht. rewrite forallb_forall in H. apply elem_of_list_In in Hin. specialize (H _ Hin). simpl in H. rewrite Ht in H. destruct (t_vars t); congruence.
Qed.
Definition replies (h : hist) : list (str * list nat * str) := omap (fun ev => match ev with OPrompt T pa _ (Some v) => Some (T, pa, v) | _ => None end) h.
Lemma same_replies_by h h' : forallb (fun a => forallb (fun b => negb (bool_decide (a.1 = b.1)) || bool_decide (a.2 = b.2)) (replies h')) (replies h) = true -> same_replies h h'.
Proof.
  intros H T pa q v q' v' H1 H2. rewrite forallb_forall in H.
  assert (A1 : In (T, pa, v) (replies h)) by (apply elem_of_list_In, elem_of_list_omap; eexists; split; [exact H1|reflexivity]).
  assert (A2 : In (T, pa, v') (replies h')) by (apply elem_of_list_In, elem_of_list_omap; eexists; split; [exact H2|reflexivity]).
  specialize (H _ A1). rewrite forallb_forall in H. specialize (H _ A2). simpl in H. rewrite bool_decide_true in H by reflexivity. simpl in H.
  apply bool_decide_eq_true in H. exact H.
Qed.
Example C86_met : keyed many /\ run_of (conf false) many (lit "all") forwards.1 (Ret None) /\ run_of (conf false) many (lit "all") rearwards.1 (Ret None) /\
  globals_kept many forwards.1 /\ globals_kept many rearwards.1 /\ same_replies forwards.1 rearwards.1 /\
  replies forwards.1 = [(lit "a", [0], lit "v")] /\ commands forwards.1 = map lit ["l"; "greet v 1"; "b"; "z"]%string /\ commands rearwards.1 = map lit ["l"; "z"; "b"; "greet v 1"]%string /\
  has (fun ev => match ev with OCancel _ => true | _ => false end) (forwards.1 ++ rearwards.1) = false.
Proof.
  split; [apply keyed_by; vm_compute; reflexivity|]. split; [apply finished; vm_compute; reflexivity|]. split; [apply finished; vm_compute; reflexivity|].
  split; [apply kept_by; vm_compute; reflexivity|]. split; [apply kept_by; vm_compute; reflexivity|]. split; [apply same_replies_by; vm_compute; reflexivity|].
  vm_compute. auto.
Qed.

(** ** What does not hold *)
(** Whether the run succeeds may depend on the schedule: a task that is still running is
    taken for a cycle, and once it is complete it is not (C29). *)
Definition shared_well := ran (conf false) shared_tasks (lit "all") (Go [] 60 fine :: blk [0; 1]).
Theorem C86_outcome_refuted : exists k tasks root h h' e, keyed tasks /\ k_dry k = false /\
  run_of k tasks root h (Ret None) /\ run_of k tasks root h' (Ret (Some e)) /\ reason e = RCircular [lit "a"] /\
  (* in both, every command ended well, nothing was asked, and nothing was cancelled *)
  forall ev, ev ∈ h \/ ev ∈ h' -> match ev with OStart _ b | OEnd _ _ b => b = true | OPrompt _ _ _ _ | OStat _ _ _ _ | OCancel _ => False | _ => True end.
Proof.
  exists (conf false), shared_tasks, (lit "all"), shared_well.1, shared.1, (RItem 1 (RCircular [lit "a"])).
  split; [apply keyed_by; vm_compute; reflexivity|]. split; [reflexivity|]. split; [apply finished; vm_compute; reflexivity|].
  split; [apply finished; vm_compute; reflexivity|]. split; [reflexivity|]. intros ev Hin.
  assert (H : has (fun ev => match ev with OStart _ b | OEnd _ _ b => negb b | OPrompt _ _ _ _ | OStat _ _ _ _ | OCancel _ => true | _ => false end) (shared_well.1 ++ shared.1) = false) by (vm_compute; reflexivity).
  apply elem_of_app in Hin. pose proof (has_not _ _ H _ Hin) as E. destruct ev; try exact I; try discriminate E; apply negb_false_iff in E; exact E.
Qed.

(** Whether the output of a command is shown may depend on the schedule: the settings of
    the reference that comes first count. *)
Definition hushed (s : string) : run_item := RTask (TaskRun 1 (lit s) None (Some false) [] []).
Definition either : taskmap := tm [mk "all" None [] [par 0 [ref "a"; hushed "a"]]; mk "a" None [] [cmd "make"]].
Definition loud := ran (conf false) either (lit "all") (Go [] 60 fine :: blk [0; 1]).
Definition quietly := ran (conf false) either (lit "all") (Go [] 60 fine :: blk [1; 0]).
Theorem C86_shown_refuted : exists k tasks root h h' x x', keyed tasks /\ run_of k tasks root h (Ret None) /\ run_of k tasks root h' (Ret None) /\
  (forall ev, ev ∈ h \/ ev ∈ h' -> match ev with OPrompt _ _ _ _ | OCancel _ => False | _ => True end) /\
  OStart x true ∈ h /\ OStart x' true ∈ h' /\ x_task x = x_task x' /\ x_path x = x_path x' /\ x_cmd x = x_cmd x' /\ x_show x = true /\ x_show x' = false /\
  ~ x_environ x ≡ₚ x_environ x'.
Proof.
  exists (conf false), either, (lit "all"), loud.1, quietly.1.
  assert (H1 : has (fun ev => match ev with OStart x true => bool_decide (x_task x = lit "a" /\ x_path x = [0] /\ x_cmd x = lit "make" /\ x_show x = true /\ length (x_environ x) = 3) | _ => false end) loud.1 = true) by (vm_compute; reflexivity).
  assert (H2 : has (fun ev => match ev with OStart x true => bool_decide (x_task x = lit "a" /\ x_path x = [0] /\ x_cmd x = lit "make" /\ x_show x = false /\ length (x_environ x) = 2) | _ => false end) quietly.1 = true) by (vm_compute; reflexivity).
  apply has_start in H1 as (x & H1 & E1). apply has_start in H2 as (x' & H2 & E2). apply bool_decide_eq_true in E1, E2.
  destruct E1 as (A1 & A2 & A3 & A4 & A5). destruct E2 as (B1 & B2 & B3 & B4 & B5). exists x, x'.
  split; [apply keyed_by; vm_compute; reflexivity|]. split; [apply finished; vm_compute; reflexivity|]. split; [apply finished; vm_compute; reflexivity|].
  split.
  { intros ev Hin. assert (H : has (fun ev => match ev with OPrompt _ _ _ _ | OCancel _ => true | _ => false end) (loud.1 ++ quietly.1) = false) by (vm_compute; reflexivity).
    apply elem_of_app in Hin. pose proof (has_not _ _ H _ Hin) as E. destruct ev; try exact I; discriminate E. }
  repeat (split; [first [assumption|congruence]|]). intros Hp. apply Permutation_length in Hp. congruence.
Qed.

(** Without the condition on the global variables the commands themselves depend on the
    schedule: the answer of one task becomes the value another task sees, or not. *)
Definition gconf : config := Config false {[lit "x" := lit "old"]} None None None [] (fun _ => []) [lit "HOME=/h"] (lit "linux") false.
Definition leaking : taskmap := tm [mk "all" None [] [par 0 [ref "a"; ref "b"]]; mk "a" None [] [ask "x"]; mk "b" None [] [cmd "echo ${{ x }}"]].
Definition asked_first := ran gconf leaking (lit "all") (Go [] 60 fine :: blk [0; 1]).
Definition asked_last := ran gconf leaking (lit "all") (Go [] 60 fine :: blk [1; 0]).
Theorem C86_globals_refuted : exists k tasks root h h' x x', keyed tasks /\ run_of k tasks root h (Ret None) /\ run_of k tasks root h' (Ret None) /\
  same_replies h h' /\ (forall m, OCancel m ∉ h ++ h') /\
  OStart x true ∈ h /\ OStart x' true ∈ h' /\ x_task x = x_task x' /\ x_path x = x_path x' /\ x_cmd x = lit "echo v" /\ x_cmd x' = lit "echo old".
Proof.
  exists gconf, leaking, (lit "all"), asked_first.1, asked_last.1.
  assert (H1 : has (fun ev => match ev with OStart x true => bool_decide (x_task x = lit "b" /\ x_path x = [0] /\ x_cmd x = lit "echo v") | _ => false end) asked_first.1 = true) by (vm_compute; reflexivity).
  assert (H2 : has (fun ev => match ev with OStart x true => bool_decide (x_task x = lit "b" /\ x_path x = [0] /\ x_cmd x = lit "echo old") | _ => false end) asked_last.1 = true) by (vm_compute; reflexivity).
  apply has_start in H1 as (x & H1 & E1). apply has_start in H2 as (x' & H2 & E2). apply bool_decide_eq_true in E1, E2.
  destruct E1 as (A1 & A2 & A3). destruct E2 as (B1 & B2 & B3). exists x, x'.
  split; [apply keyed_by; vm_compute; reflexivity|]. split; [apply finished; vm_compute; reflexivity|]. split; [apply finished; vm_compute; reflexivity|].
  split; [apply same_replies_by; vm_compute; reflexivity|]. split.
  { intros m Hin. assert (H : has (fun ev => match ev with OCancel _ => true | _ => false end) (asked_first.1 ++ asked_last.1) = false) by (vm_compute; reflexivity).
    pose proof (has_not _ _ H _ Hin) as E. discriminate E. }
  repeat split; first [assumption|congruence].
Qed.
Print Assumptions C86_outcome_refuted. Print Assumptions C86_shown_refuted. Print Assumptions C86_globals_refuted.

(** C20 for blocks: in [forwards] the first thing an item of the block does comes after
    [lib], which only tasks that the items name depend on. *)
Example C20_block_met : exists past x, happened forwards.1 (OStart x true) past /\ x_task x = lit "all" /\ x_path x = [0; 2] /\ ODone (lit "lib") ∈ past.
Proof.
  assert (H : has (fun ev => match ev with OStart x true => bool_decide (x_task x = lit "all" /\ x_path x = [0; 2]) | _ => false end) forwards.1 = true) by (vm_compute; reflexivity).
  apply has_start in H as (x & Hin & E). apply bool_decide_eq_true in E as [E1 E2].
  assert (Hk : keyed many) by (apply keyed_by; vm_compute; reflexivity).
  assert (Hr : run_of (conf false) many (lit "all") forwards.1 (Ret None)) by (apply finished; vm_compute; reflexivity).
  pose proof (run_good _ _ _ Hk _ _ Hr) as Hg. destruct (good_in _ _ _ _ Hg Hin) as (past & Hs & _ & _ & _).
  exists past, x. split; [exact Hs|]. split; [exact E1|]. split; [exact E2|].
  destruct (C20_block_dependencies_first _ _ _ Hk _ _ (OStart x true) (lit "all") 0 2 past Hr Hs) as (t & o & items & Ht & Hit & Hd); [unfold action; rewrite E1, E2; reflexivity|].
  vm_compute in Ht. injection Ht as <-. injection Hit as <- <-.
  eapply (Hd (TaskRun 1 (lit "b") None None [] [])); [right; left|reflexivity|left].
Qed.
