(** C87: whether a run succeeds depends on its schedule only through a task that is found
    running. Two executions of the same task in the same surroundings are compared; the
    outcomes of commands, questions and directories agree, the schedules do not. *)
From Verif Require Import Base Interp_Model Interp_Spec Interp_Proof Interp_Escape Vars_Proof Cond_Model Types_Model Path_Model Valid_Spec
  Run_Model Run_Logic Run_Spec Run_Inv Run_Proof Run_Facts Run_Own Run_Drive P_Run P_Run_Cmd P_Dry P_Same Run_Seq P_Apart.
From Verif Require Run_Apart.
Import Run_Apart (apart, leads).

(** ** Vocabulary of the statements *)

(** Where both runs come to the same command, question or directory, it turns out alike. *)
Record same_world (h h' : hist) : Prop := {
  sw_start : forall x b x' b', OStart x b ∈ h -> OStart x' b' ∈ h' -> x_task x = x_task x' -> x_path x = x_path x' -> b = b';
  sw_end : forall T pa b b', OEnd T pa b ∈ h -> OEnd T pa b' ∈ h' -> b = b';
  sw_ask : forall T pa q a q' a', OPrompt T pa q a ∈ h -> OPrompt T pa q' a' ∈ h' -> a = a';
  sw_stat : forall T pa d s s', OStat T pa d s ∈ h -> OStat T pa d s' ∈ h' -> s = s' }.

(** Nobody interrupts the run: contexts are cancelled only when an item of a block has
    failed. The screen of a block can be opened. *)
Definition undisturbed (h : hist) : Prop :=
  (forall m past, happened h (OCancel m) past -> exists T pa j e, OReturn T pa j (Some e) ∈ past) /\ OTui false ∉ h.

(** ** Proofs *)
Lemma interpolate_list_ok getenv vars l out s : interpolate_list getenv vars l = Ok out -> s ∈ l -> exists v, interpolate getenv vars s = Ok v.
Proof.
  revert out. induction l as [|x l IH]; intros out H Hin; [inversion Hin|]. simpl in H. destruct (interpolate getenv vars x) as [v|e] eqn:E1; [|discriminate H].
  destruct (interpolate_list getenv vars l) as [vs|e] eqn:E2; [|discriminate H]. apply elem_of_cons in Hin as [->|Hin]; [eauto|]. eapply IH; [reflexivity|exact Hin].
Qed.
Lemma interpolate_prompt_ok getenv vars p q s : interpolate_prompt getenv vars p = Ok q -> s ∈ item_strings (RPrompt p) -> exists v, interpolate getenv vars s = Ok v.
Proof.
  unfold interpolate_prompt. simpl item_strings.
  assert (Hopt : forall s0 v, match s0 with [] => Ok [] | _ => interpolate getenv vars s0 end = Ok v -> exists v', interpolate getenv vars s0 = Ok v').
  { intros [|b s0] v H; [exists []; reflexivity|eauto]. }
  destruct (interpolate getenv vars (p_message p)) as [msg|] eqn:E1; [|discriminate].
  destruct (match p_default p with [] => Ok [] | _ => interpolate getenv vars (p_default p) end) as [d|] eqn:E2; [|discriminate].
  destruct (match p_placeholder p with [] => Ok [] | _ => interpolate getenv vars (p_placeholder p) end) as [ph|] eqn:E3; [|discriminate].
  destruct (interpolate_list getenv vars (p_options p)) as [os|] eqn:E4; [|discriminate].
  destruct (interpolate_list getenv vars (p_defaults p)) as [ds|] eqn:E5; [|discriminate]. intros _ Hin.
  apply elem_of_cons in Hin as [->|Hin]; [eauto|]. apply elem_of_cons in Hin as [->|Hin]; [eapply Hopt; exact E2|].
  apply elem_of_cons in Hin as [->|Hin]; [eapply Hopt; exact E3|]. simpl in Hin. apply elem_of_app in Hin as [Hin|Hin]; [eapply interpolate_list_ok; [exact E4|exact Hin]|eapply interpolate_list_ok; [exact E5|exact Hin]].
Qed.

Section Two.
  Context (k : config) (tasks : taskmap) (root : str) (Hdry : k_dry k = false) (Hkeyed : keyed tasks).
  Context (Hge : forall n, nul_free (k_getenv k n)) (Hv : all_nul_free (k_vars k))
    (Htv : forall T t vs, tasks !! T = Some t -> t_vars t = Some vs -> all_nul_free vs).
  Notation good := (good (k_vars k) (step_ok k tasks root)).
  Context (h1 h2 : hist) (Hg1 : good h1) (Hg2 : good h2) (Hk1 : globals_kept tasks h1) (Hk2 : globals_kept tasks h2).
  Context (Hw : same_world h1 h2) (Hroot : ODone root ∈ h2) (Hnc : forall m, OCancel m ∉ h2).

  Lemma replies_agree : same_replies h1 h2.
  Proof. intros T pa q v q' v' H1 H2. pose proof (sw_ask _ _ Hw _ _ _ _ _ _ H1 H2) as E. congruence. Qed.
  Lemma claimed_done T s st : OClaim T s st ∈ h1 -> ODone T ∈ h2.
  Proof. eapply (done_there k tasks root Hdry Hkeyed Hge Hv Htv h1 h2); try eassumption. exact replies_agree. Qed.
  Lemma agree_sees T t pa m1 m2 : tasks !! T = Some t -> sees k h1 t pa m1 -> sees k h2 t pa m2 -> m1 = m2.
  Proof. eapply (sees_same k tasks root); eauto using replies_agree. Qed.
  Lemma due_claimed T pa it : runs k tasks h1 T pa it -> ODone T ∈ h2.
  Proof.
    intros (t & Ht & _ & _ & _ & _ & c & Hc). destruct (good_in _ _ _ _ Hg1 Hc) as (h0 & Hs & Hg0 & Hal & HG).
    destruct (act_claim k tasks root (OCheck T (top pa) c false) h0 (T, [top pa], false)) as (s & Hcl); [constructor; assumption|reflexivity|].
    eapply claimed_done. eapply suffix_elem; [etransitivity; [apply suffix_cons_self|exact Hs]|exact Hcl].
  Qed.
  Lemma due_there T t pa it : tasks !! T = Some t -> runs k tasks h1 T pa it ->
    match pa with [i] => item_ok false h2 T i it | [i; j] => OReturn T [i] j None ∈ h2 /\ leaf_ok false h2 T [i; j] it | _ => False end.
  Proof.
    intros Ht Hru. eapply (item_there k tasks root Hdry Hkeyed Hge Hv Htv h1 h2); try eassumption; [exact replies_agree|eapply due_claimed; exact Hru].
  Qed.

  (** A command that is due in the first run is started in the second. *)
  Lemma command_there T t pa c : tasks !! T = Some t -> runs k tasks h1 T pa (RCmd c) ->
    exists h0 x vars tenv cenv, h0 `suffix_of` h2 /\ sees k h2 t pa vars /\ x_task x = T /\ x_path x = pa /\ OStart x true ∈ h2 /\ OEnd T pa true ∈ h2 /\
      trim_space (c_cmd c) <> [] /\ interpolate (k_getenv k) vars (c_cmd c) = Ok (x_cmd x) /\ task_env k h2 t tenv /\
      interp_env k vars (smap_get (merge_maps (Some tenv) (c_env c))) cenv /\ dir_ok k h2 t pa (c_dir c) vars (x_dir x).
  Proof.
    intros Ht Hru. pose proof (due_there T t pa _ Ht Hru) as Hok.
    assert (Hleaf : leaf_ok false h2 T pa (RCmd c)) by (destruct pa as [|i [|j [|? ?]]]; try contradiction; [exact Hok|apply Hok]).
    destruct Hleaf as [(x & F1 & F2 & Hst) He]. destruct (good_in _ _ _ _ Hg2 Hst) as (h0 & Hs' & _ & _ & [_ HB]).
    assert (Hs : h0 `suffix_of` h2) by (etransitivity; [apply suffix_cons_self|exact Hs']).
    destruct (st_what _ _ _ _ HB) as (t2 & c2 & s2 & vars & te & ce & od & T2 & Q2 & _ & _ & S2 & N2 & I2 & V2 & C2 & _ & _ & D2 & _).
    rewrite F1, F2 in *. assert (t2 = t) as -> by congruence.
    assert (RCmd c2 = RCmd c) as E by (eapply item_at_fun; [eapply runs_item; eassumption|eapply runs_item; eassumption]). injection E as ->.
    exists h0, x, vars, te, ce. split; [exact Hs|]. split; [eapply sees_mono; eassumption|]. repeat (split; [assumption|]).
    split; [|split; [assumption|]].
    - destruct V2 as (v & A & B). exists v. split; [eapply sees_mono; eassumption|exact B].
    - destruct D2 as [D|[D D']]; [left; exact D|right]. split; [exact D|eapply suffix_elem; eassumption].
  Qed.
  (** The items of a task that is entered are looked at in the second run. *)
  Lemma looked_there T t : tasks !! T = Some t -> ODone T ∈ h2 -> OSkipTask T ∉ h2 -> t_run t <> [] -> exists tenv, task_env k h2 t tenv.
  Proof.
    intros Ht Hd Hns Hne. destruct (t_run t) as [|it rest] eqn:E; [congruence|]. clear Hne.
    assert (Hit : t_run t !! 0 = Some it) by (rewrite E; reflexivity).
    destruct (done_settled k tasks root _ _ Hg2 Hd) as (t' & Ht' & [[Hsk _]|[_ Hall]]); [contradiction|]. assert (t' = t) as -> by congruence.
    assert (Hc : exists c b, OCheck T 0 c b ∈ h2).
    { destruct (Hall _ _ Hit) as [[_ Hr]|(w & Hs)].
      - destruct (good_in _ _ _ _ Hg2 Hr) as (h0 & Hs & _ & _ & [_ (_ & _ & _ & _ & t2 & i2 & it2 & Ep & _ & (t3 & _ & _ & _ & _ & _ & c & Hc) & _)]).
        injection Ep as <-. exists c, false. eapply suffix_elem; [etransitivity; [apply suffix_cons_self|exact Hs]|exact Hc].
      - destruct (good_in _ _ _ _ Hg2 Hs) as (h0 & Hs' & _ & _ & [_ (t2 & i2 & it2 & Ep & _ & _ & _ & _ & (c & Hc) & _)]).
        injection Ep as <-. exists c, false. eapply suffix_elem; [etransitivity; [apply suffix_cons_self|exact Hs']|exact Hc]. }
    destruct Hc as (c & b & Hc). destruct (good_in _ _ _ _ Hg2 Hc) as (h0 & Hs & _ & _ & [_ (_ & t2 & T2 & _ & _ & _ & _ & _ & te & v & A & B)]).
    assert (t2 = t) as -> by congruence. exists te, v. split; [|exact B]. eapply sees_mono; [|exact A]. etransitivity; [apply suffix_cons_self|exact Hs].
  Qed.
  Lemma entered_there T t : tasks !! T = Some t -> entered k h1 T t -> exists tenv, task_env k h2 t tenv.
  Proof.
    intros Ht ((s & Hcl) & Hch & _ & Hne). eapply looked_there; [exact Ht|eapply claimed_done; exact Hcl| |exact Hne].
    exact (task_unskipped k tasks root h1 h2 Hg1 Hg2 Hk1 Hk2 T t Ht Hch).
  Qed.

  Theorem no_failure e : err_ok k tasks root h1 e -> (forall n sc, OClaim n sc Active ∉ h1) -> (forall m, OCancel m ∉ h1) -> OTui false ∉ h1 -> False.
  Proof.
    intros He Hna Hcc Htui. unfold err_ok in He.
    assert (Hdone : forall T, ODone T ∈ h2 -> is_Some (tasks !! T)).
    { intros T Hd. destruct (done_settled k tasks root _ _ Hg2 Hd) as (t & Ht & _). eauto. }
    destruct (reason e) as [ |n|c|T ln e0|T i ln e0|ln e0|ln e0|ln e0|T|T ln e0|T d|T cmd|T v| |T| |n| |? ?|? ?|? ?] eqn:Er; try contradiction.
    - (* no such task *)
      destruct He as (Hn & s & _ & Hcl). apply claimed_done in Hcl. destruct (Hdone _ Hcl). congruence.
    - (* a cycle *)
      destruct He as (n & sc & Hin). exact (Hna _ _ Hin).
    - (* the condition of a task *)
      destruct He as (t & gl & Ht & _ & (s & Hcl) & Hgl & Hev). apply claimed_done in Hcl.
      destruct (good_in _ _ _ _ Hg2 Hcl) as (h0 & Hs & _ & _ & [_ (t2 & T2 & HB & _)]). assert (t2 = t) as -> by congruence.
      assert (Hs0 : h0 `suffix_of` h2) by (etransitivity; [apply suffix_cons_self|exact Hs]).
      assert (Hsame : forall gl2, globals_once k h2 gl2 -> gl = gl2) by (intros gl2 H2; eapply (once_same k tasks root h1 h2); eassumption).
      destruct HB as [[Hsk _]|(_ & _ & [Hch|(gl2 & A & B)] & _)].
      + assert (Hsk' : OSkipTask T ∈ h2) by (eapply suffix_elem; eassumption).
        destruct (good_in _ _ _ _ Hg2 Hsk') as (h4 & Hs4 & _ & _ & [_ (_ & t3 & gl3 & T3 & _ & A & B)]). assert (t3 = t) as -> by congruence.
        rewrite (Hsame gl3) in Hev; [congruence|]. eapply globals_once_mono; [|exact A]. etransitivity; [apply suffix_cons_self|exact Hs4].
      + rewrite Hch in Hev. discriminate Hev.
      + rewrite (Hsame gl2) in Hev; [congruence|]. eapply globals_once_mono; eassumption.
    - (* the condition of an item *)
      destruct He as (t & it & vars & Ht & Hit & _ & (c & Hc) & Hpl & Hsee & Hev).
      destruct (good_in _ _ _ _ Hg1 Hc) as (h0 & Hs & Hg0 & Hal & HG). pose proof HG as [_ (_ & t2 & T2 & _ & _ & _ & Hch & _)]. assert (t2 = t) as -> by congruence.
      assert (Hs0 : h0 `suffix_of` h1) by (etransitivity; [apply suffix_cons_self|exact Hs]).
      assert (Hd : ODone T ∈ h2).
      { destruct (act_claim k tasks root (OCheck T i c false) h0 (T, [i], false)) as (s & Hcl); [constructor; assumption|reflexivity|].
        eapply claimed_done. eapply suffix_elem; [exact Hs0|exact Hcl]. }
      assert (Hsame : forall h4 m, h4 `suffix_of` h2 -> sees k h4 t [i] m -> vars = m).
      { intros h4 m H4 H5. eapply agree_sees; [exact Ht|exact Hsee|]. eapply sees_mono; eassumption. }
      destruct (done_settled k tasks root _ _ Hg2 Hd) as (t' & Ht' & [[Hsk _]|[_ Hall]]).
      { eapply (task_unskipped k tasks root h1 h2); [exact Hg1|exact Hg2|exact Hk1|exact Hk2|exact Ht| |exact Hsk]. eapply task_chosen_mono; [exact Hs0|exact Hch]. }
      assert (t' = t) as -> by congruence. destruct (Hall _ _ Hit) as [[_ Hr]|(w & Hsk)].
      + destruct (good_in _ _ _ _ Hg2 Hr) as (h4 & Hs4 & _ & _ & [_ (_ & _ & _ & _ & t3 & i3 & it3 & Ep & _ & (t4 & T4 & _ & _ & _ & Hch4 & _) & _)]).
        assert (t4 = t) as -> by congruence. simpl in Hch4. destruct (Hch4 it Hit) as [_ [Hw0|(v & A & B)]]; [rewrite Hw0 in Hev; discriminate Hev|].
        rewrite (Hsame h4 v) in Hev; [congruence| |exact A]. etransitivity; [apply suffix_cons_self|exact Hs4].
      + destruct (good_in _ _ _ _ Hg2 Hsk) as (h4 & Hs4 & _ & _ & [_ (t3 & i3 & it3 & Ep & T3 & I3 & _ & _ & _ & _ & HW)]). injection Ep as <-.
        assert (t3 = t) as -> by congruence. assert (it3 = it) as -> by congruence. destruct w; [congruence|]. destruct HW as (_ & v & A & B).
        rewrite (Hsame h4 v) in Hev; [congruence| |exact A]. etransitivity; [apply suffix_cons_self|exact Hs4].
    - (* the variables of a task *)
      destruct He as (T & t & vs & gl & od & Ht & _ & Hen & Evs & Hgl & Hod & Hr). destruct (entered_there T t Ht Hen) as (te & v & A & _).
      unfold sees in A. rewrite Evs in A. inversion A as [vs2 gl2 od2 l2 m2 B1 B2 B3 B4 B5| |]; subst. rewrite Evs in B1. injection B1 as <-.
      rewrite (once_same k tasks root h1 h2 Hg1 Hg2 Hk1 Hk2 gl gl2 Hgl B2) in Hr. rewrite (kept_once k tasks root h2 gl2 Hk2 Hg2 B2) in *.
      pose proof (resolve_vars_order (k_getenv k) vs (Some (k_vars k)) od2 od Hge (Htv _ _ _ Ht Evs) Hv B3 Hod v B4). congruence.
    - (* the environment *)
      destruct He as (T & t & vars & env & key & v & Ht & Hwhich & Hkey & Hev). destruct Hwhich as [(_ & Hen & Hsee & ->)|(pa & c & te & _ & Hru & Hsee & Hte & ->)].
      + destruct (entered_there T t Ht Hen) as (te & v2 & A & B). rewrite <- (agree_sees T t [] _ _ Ht Hsee A) in B.
        apply (interp_env_get _ _ _ _ key) in B. rewrite Hkey in B. destruct B as (w & B & _). congruence.
      + destruct (command_there T t pa c Ht Hru) as (h0 & x & v2 & te2 & ce & _ & A & _ & _ & _ & _ & _ & _ & A2 & A3 & _).
        rewrite <- (agree_sees T t pa _ _ Ht Hsee A) in A3.
        assert (te = te2) as <-.
        { destruct Hte as (u1 & B1 & B2). destruct A2 as (u2 & B3 & B4). rewrite <- (agree_sees T t [] _ _ Ht B1 B3) in B4. eapply env_same; eassumption. }
        apply (interp_env_get _ _ _ _ key) in A3. rewrite Hkey in A3. destruct A3 as (w & B & _). congruence.
    - (* the text of an item *)
      destruct He as (T & t & pa & it & s & vars & Ht & Hru & _ & Hin & Hsee & Hev). destruct it as [c|r|lg|p|o items]; simpl in Hin; try (inversion Hin; fail).
      + destruct (command_there T t pa c Ht Hru) as (h0 & x & v2 & te2 & ce & _ & A & _ & _ & _ & _ & _ & B & _).
        apply elem_of_list_singleton in Hin. subst s. rewrite (agree_sees T t pa _ _ Ht Hsee A) in Hev. congruence.
      + pose proof (due_there T t pa _ Ht Hru) as Hok.
        assert (Hleaf : leaf_ok false h2 T pa (RLog lg)) by (destruct pa as [|i [|j [|? ?]]]; try contradiction; [exact Hok|apply Hok]).
        destruct Hleaf as (text' & d' & Hq). apply elem_of_list_singleton in Hin. subst s.
        destruct (good_in _ _ _ _ Hg2 Hq) as (h4 & Hs4' & _ & _ & [_ (_ & _ & _ & t2 & lg2 & vars2 & T2 & Q2 & S2 & I2 & E2)]).
        assert (t2 = t) as -> by congruence.
        assert (RLog lg2 = RLog lg) as E by (eapply item_at_fun; [eapply runs_item; eassumption|eapply runs_item; eassumption]). injection E as ->.
        rewrite (agree_sees T t pa vars vars2 Ht Hsee) in Hev; [congruence|]. eapply sees_mono; [|exact S2]. etransitivity; [apply suffix_cons_self|exact Hs4'].
      + pose proof (due_there T t pa _ Ht Hru) as Hok. destruct pa as [|i [|j [|? ?]]]; try contradiction; [|destruct Hok as [_ []]].
        destruct Hok as (q & v & Hq).
        destruct (good_in _ _ _ _ Hg2 Hq) as (h4 & Hs4' & _ & _ & [_ (_ & _ & t2 & i2 & p2 & vars2 & E2 & T2 & Q2 & S2 & I2)]).
        assert (t2 = t) as -> by congruence.
        assert (RPrompt p2 = RPrompt p) as E by (eapply item_at_fun; [eapply runs_item; eassumption|eapply runs_item; eassumption]). injection E as ->.
        destruct (interpolate_prompt_ok _ _ _ _ s I2 Hin) as (w & Hw').
        rewrite (agree_sees T t [i] vars vars2 Ht Hsee) in Hev; [congruence|]. eapply sees_mono; [|exact S2]. etransitivity; [apply suffix_cons_self|exact Hs4'].
    - (* an empty command *)
      destruct He as (pa & c & Hru & Hem). pose proof Hru as (t & Ht & _).
      destruct (command_there T t pa c Ht Hru) as (h0 & x & v2 & te2 & ce & _ & _ & _ & _ & _ & _ & N & _). contradiction.
    - (* the text of a directory *)
      destruct He as (t & pa & c & vars & Ht & Hru & _ & Hsee & Hev).
      destruct (command_there T t pa c Ht Hru) as (h0 & x & v2 & te2 & ce & _ & A & _ & _ & _ & _ & _ & _ & _ & _ & D).
      rewrite (agree_sees T t pa _ _ Ht Hsee A) in Hev. destruct D as [[D _]|[(_ & d3 & D & _) _]]; [rewrite D in Hev; discriminate Hev|congruence].
    - (* a directory *)
      destruct He as (pa & s & Hs & Hst). destruct (good_in _ _ _ _ Hg1 Hst) as (h0 & Hs' & _ & _ & [_ (_ & _ & _ & t & c & vars & Ht & Hru & Hsee & Hdir)]).
      assert (Hs0 : h0 `suffix_of` h1) by (etransitivity; [apply suffix_cons_self|exact Hs']).
      destruct (command_there T t pa c Ht (runs_mono _ _ _ _ _ _ _ Hs0 Hru)) as (h4 & x & v2 & te2 & ce & _ & A & _ & _ & _ & _ & _ & _ & _ & _ & D).
      rewrite <- (agree_sees T t pa _ _ Ht (sees_mono _ _ _ _ _ _ Hs0 Hsee) A) in D. destruct Hdir as (D0 & d3 & D1 & ->).
      destruct D as [[D _]|[(_ & d4 & D2 & D3) D4]]; [contradiction|]. rewrite D1 in D2. injection D2 as <-. rewrite <- D3, (Hkeyed _ _ Ht) in *.
      apply Hs. eapply (sw_stat _ _ Hw); eassumption.
    - (* a command *)
      destruct He as (x & E1 & E2 & Hx).
      assert (Hst : exists b, OStart x b ∈ h1) by (destruct Hx as [H|[H _]]; eauto). destruct Hst as (b & Hst).
      destruct (same_there k tasks root Hdry Hkeyed Hge Hv Htv h1 h2 Hg1 Hg2 Hk1 Hk2 replies_agree Hroot Hnc (OStart x b) (x_task x) (x_path x) Hst eq_refl) as (x' & B1 & B2 & (F1 & F2 & _)).
      destruct Hx as [H|[H H']].
      + pose proof (sw_start _ _ Hw _ _ _ _ H B1 F1 F2). discriminate.
      + rewrite E1 in B2. pose proof (sw_end _ _ Hw _ _ _ _ H' B2). discriminate.
    - (* a question *)
      destruct He as (pa & q & p & Hq & _).
      destruct (same_there k tasks root Hdry Hkeyed Hge Hv Htv h1 h2 Hg1 Hg2 Hk1 Hk2 replies_agree Hroot Hnc _ T pa Hq eq_refl) as (v' & Hq').
      pose proof (sw_ask _ _ Hw _ _ _ _ _ _ Hq Hq'). discriminate.
    - (* cancelled *)
      destruct He as (T & i & c & Hc). destruct (good_in _ _ _ _ Hg1 Hc) as (h0 & Hs & _ & Hal & _). simpl in Hal. symmetry in Hal. apply cancelledb_spec in Hal as (m & _ & Hm).
      apply (Hcc m). eapply suffix_elem; [etransitivity; [apply suffix_cons_self|exact Hs]|exact Hm].
    - (* no item for this platform *)
      destruct He as (t & Ht & ((s & Hcl) & Hch & _ & Hne) & Hall). apply claimed_done in Hcl.
      destruct (good_in _ _ _ _ Hg2 Hcl) as (h0 & Hs & _ & _ & [_ (t2 & T2 & HB & _)]). assert (t2 = t) as -> by congruence.
      destruct HB as [[Hsk _]|(_ & _ & _ & Hfit)].
      + eapply (task_unskipped k tasks root h1 h2); [exact Hg1|exact Hg2|exact Hk1|exact Hk2|exact Ht|exact Hch|].
        eapply suffix_elem; [etransitivity; [apply suffix_cons_self|exact Hs]|exact Hsk].
      + destruct (Hfit Hne) as (i & it & Hit & Hpl). specialize (Hall _ _ Hit).
        destruct (good_in _ _ _ _ Hg1 Hall) as (h4 & _ & _ & _ & [_ (t3 & i3 & it3 & Ep & T3 & I3 & _ & _ & _ & _ & HW)]). injection Ep as <-.
        assert (t3 = t) as -> by congruence. congruence.
    - (* a prompt or a block in a block *)
      destruct He as (T & i & j & it & Hru & Hit). pose proof Hru as (t & Ht & _). pose proof (due_there T t _ _ Ht Hru) as [_ Hok].
      destruct it; try contradiction; destruct Hok.
    - (* a block that names no task *)
      destruct He as (Hn & T & s & i & o & items & r & _ & Hru & Hin & <-). pose proof Hru as (t & Ht & _).
      pose proof (due_there T t _ _ Ht Hru) as [_ Hok]. apply elem_of_list_lookup in Hin as (j & Hj).
      destruct (Hok _ _ Hj) as [[_ Hl]|(c & _ & _ & m & _ & Hm)]; [|exact (Hnc m Hm)]. simpl in Hl. destruct (Hdone _ Hl). congruence.
  Qed.
End Two.

Section Theorems.
  Context (k : config) (tasks : taskmap) (root : str) (Hkeyed : keyed tasks) (Hdry : k_dry k = false).
  Context (Hge : forall n, nul_free (k_getenv k n)) (Hv : all_nul_free (k_vars k))
    (Htv : forall T t vs, tasks !! T = Some t -> t_vars t = Some vs -> all_nul_free vs).
  Notation run_of := (run_of k tasks root).

  (** A run that succeeds is not cancelled, if nobody interrupts it. *)
  Lemma success_uncancelled h : run_of h (Ret None) -> undisturbed h -> forall m, OCancel m ∉ h.
  Proof.
    intros Hr [Hc _] m Hin. destruct (run_success k tasks root h Hr) as [Hn _].
    apply elem_of_list_split in Hin as (l1 & l2 & ->). destruct (Hc m l2) as (T & pa & j & e & H); [exists l1; reflexivity|].
    apply (Hn (OReturn T pa j (Some e))); [|exact I]. apply elem_of_app. right. right. exact H.
  Qed.

  Section Pair.
    Context (h h' : hist) (p : prog) (R1 : run_of h p) (R2 : run_of h' (Ret None)).
    Context (K1 : globals_kept tasks h) (K2 : globals_kept tasks h') (Hw : same_world h h') (U1 : undisturbed h) (U2 : undisturbed h').
    Context (Hna : forall n sc, OClaim n sc Active ∉ h).

    Lemma past_fine past : past `suffix_of` h -> forall e, ~ err_ok k tasks root past e \/ exists m, OCancel m ∈ past.
    Proof.
      intros Hs e. destruct (has (fun ev => match ev with OCancel _ => true | _ => false end) past) eqn:Hno.
      { right. apply has_in in Hno as (ev & Hin & Hev). destruct ev; try discriminate Hev. eauto. }
      left. intros He. destruct (C22_success_ran_everything_partial k tasks root Hkeyed h' R2 (success_uncancelled _ R2 U2)) as (Hroot & _ & _).
      assert (Hsub : forall ev, ev ∈ past -> ev ∈ h) by (intros ev; apply suffix_elem; exact Hs).
      refine (no_failure k tasks root Hdry Hkeyed Hge Hv Htv past h' _ _ _ K2 _ Hroot (success_uncancelled _ R2 U2) e He _ _ _).
      - eapply good_suffix; [exact Hs|]. eapply run_good; eassumption.
      - eapply run_good; eassumption.
      - intros T pa q v t H. apply (K1 T pa q v t). apply Hsub. exact H.
      - destruct Hw as [W1 W2 W3 W4]. constructor; intros; [eapply W1|eapply W2|eapply W3|eapply W4]; eauto.
      - intros n sc H. apply (Hna n sc), Hsub, H.
      - intros m H. pose proof (has_not _ _ Hno _ H) as E. discriminate E.
      - intros H. apply U1, Hsub, H.
    Qed.
    Lemma nothing_failed past : past `suffix_of` h -> (forall T pa j e, OReturn T pa j (Some e) ∉ past) /\ forall m, OCancel m ∉ past.
    Proof.
      induction past as [|ev past IH]; intros Hs; [split; intros; apply not_elem_of_nil|].
      assert (Hs0 : past `suffix_of` h) by (etransitivity; [apply suffix_cons_self|exact Hs]). destruct (IH Hs0) as [IH1 IH2]. split.
      - intros T pa j e Hin. apply elem_of_cons in Hin as [<-|Hin]; [|exact (IH1 _ _ _ _ Hin)].
        pose proof (happened_good k tasks root Hkeyed _ _ _ _ R1 Hs) as Hg. apply good_tail in Hg as (_ & _ & [_ (_ & _ & _ & i & o & items & it & _ & _ & _ & He)]).
        destruct (past_fine past Hs0 e) as [H|(m & H)]; [exact (H He)|exact (IH2 _ H)].
      - intros m Hin. apply elem_of_cons in Hin as [<-|Hin]; [|exact (IH2 _ Hin)]. destruct (proj1 U1 m past Hs) as (T & pa & j & e & H). exact (IH1 _ _ _ _ H).
    Qed.
    Lemma not_failed e : p <> Ret (Some e).
    Proof.
      intros E. pose proof R1 as R0. rewrite E in R0. destruct (run_sound k tasks root Hkeyed h _ R0) as [_ HQ]. specialize (HQ _ eq_refl). simpl in HQ.
      destruct (past_fine h (reflexivity h) e) as [H|(m & H)]; [exact (H HQ)|]. exact (proj2 (nothing_failed h (reflexivity h)) m H).
    Qed.
  End Pair.

  (** If one run succeeds, another can only fail because some goroutine of it came to a
      task that was running and took that for a cycle. *)
  Theorem C87_fails_only_over_running h h' e : run_of h (Ret (Some e)) -> run_of h' (Ret None) ->
    globals_kept tasks h -> globals_kept tasks h' -> same_world h h' -> undisturbed h -> undisturbed h' ->
    exists n sc, OClaim n sc Active ∈ h.
  Proof.
    intros R1 R2 K1 K2 Hw U1 U2. destruct (has (fun ev => match ev with OClaim _ _ Active => true | _ => false end) h) eqn:Hno.
    { apply has_in in Hno as (ev & Hin & Hev). destruct ev as [n sc [| |]| | | | | | | | | | | | | | | | | | | | | | | | | | | |]; try discriminate Hev. eauto. }
    exfalso. refine (not_failed h h' _ R1 R2 K1 K2 Hw U1 U2 _ e eq_refl). intros n sc H. pose proof (has_not _ _ Hno _ H) as E. discriminate E.
  Qed.
  (** If the items of each block lead to different tasks, and there is no cycle, the runs
      succeed together or fail together. *)
  Theorem C87_independent_items_same_outcome h h' r r' : apart tasks -> ~ cyclic tasks -> run_of h (Ret r) -> run_of h' (Ret r') ->
    globals_kept tasks h -> globals_kept tasks h' -> same_world h h' -> undisturbed h -> undisturbed h' ->
    (r = None <-> r' = None).
  Proof.
    intros Ha Hc R1 R2 K1 K2 Hw U1 U2.
    assert (Hw' : same_world h' h) by (destruct Hw as [W1 W2 W3 W4]; constructor; intros; symmetry; [eapply W1|eapply W2|eapply W3|eapply W4]; eauto).
    assert (Hna : forall g q, run_of g q -> forall n sc, OClaim n sc Active ∉ g) by (intros g q Hr n sc; eapply (C29_independent_items_never_meet_partial k tasks root); eassumption).
    split; intros ->; [destruct r' as [e|]|destruct r as [e|]]; try reflexivity; exfalso.
    - exact (not_failed h' h _ R2 R1 K2 K1 Hw' U2 U1 (Hna _ _ R2) e eq_refl).
    - exact (not_failed h h' _ R1 R2 K1 K2 Hw U1 U2 (Hna _ _ R1) e eq_refl).
  Qed.
End Theorems.
Print Assumptions C87_fails_only_over_running. Print Assumptions C87_independent_items_same_outcome.

(** ** Cases *)
Definition alike (h h' : hist) : bool :=
  forallb (fun a => forallb (fun b => match a, b with
    | OStart x r, OStart x' r' => negb (bool_decide (x_task x = x_task x' /\ x_path x = x_path x')) || bool_decide (r = r')
    | OEnd T pa r, OEnd T' pa' r' => negb (bool_decide (T = T' /\ pa = pa')) || bool_decide (r = r')
    | OPrompt T pa _ r, OPrompt T' pa' _ r' => negb (bool_decide (T = T' /\ pa = pa')) || bool_decide (r = r')
    | OStat T pa d s, OStat T' pa' d' s' => match s, s' with SMissing, SMissing | SError, SError | SNotDir, SNotDir | SDir, SDir => true | _, _ => false end
    | _, _ => true
    end) h') h.
Lemma alike_world h h' : alike h h' = true -> same_world h h'.
Proof.
  intros H. unfold alike in H. rewrite forallb_forall in H.
  assert (H2 : forall a b, a ∈ h -> b ∈ h' -> _) by (intros a b Ha Hb; apply elem_of_list_In in Ha, Hb; specialize (H _ Ha); rewrite forallb_forall in H; exact (H _ Hb)).
  clear H. constructor; intros.
  - specialize (H2 _ _ H H0). simpl in H2. rewrite bool_decide_true in H2 by auto. simpl in H2. apply bool_decide_eq_true in H2. exact H2.
  - specialize (H2 _ _ H H0). simpl in H2. rewrite bool_decide_true in H2 by auto. simpl in H2. apply bool_decide_eq_true in H2. exact H2.
  - specialize (H2 _ _ H H0). simpl in H2. rewrite bool_decide_true in H2 by auto. simpl in H2. apply bool_decide_eq_true in H2. exact H2.
  - specialize (H2 _ _ H H0). simpl in H2. destruct s, s'; congruence.
Qed.
Lemma calm h : has (fun ev => match ev with OCancel _ | OTui false => true | _ => false end) h = false -> undisturbed h.
Proof.
  intros H. split; [intros m past Hh|intros Hin].
  - assert (Hin : OCancel m ∈ h) by (eapply suffix_elem; [exact Hh|left]). pose proof (has_not _ _ H _ Hin) as E. discriminate E.
  - pose proof (has_not _ _ H _ Hin) as E. discriminate E.
Qed.
Lemma many_acyclic : ~ cyclic many.
Proof.
  assert (Ho : Vars_Proof.iteration_order many [lit "all"; lit "prep"; lit "a"; lit "b"; lit "lib"]) by (apply (bool_decide_unpack _); vm_compute; exact I).
  rewrite <- (Valid_Proof.cycles_iff Valid_Model.go_grow many _ Ho). vm_compute. auto.
Qed.
Example C87_met : keyed many /\ apart many /\ ~ cyclic many /\ run_of (conf false) many (lit "all") forwards.1 (Ret None) /\ run_of (conf false) many (lit "all") rearwards.1 (Ret None) /\
  globals_kept many forwards.1 /\ globals_kept many rearwards.1 /\ same_world forwards.1 rearwards.1 /\ undisturbed forwards.1 /\ undisturbed rearwards.1.
Proof.
  split; [apply keyed_by; vm_compute; reflexivity|]. split; [apply apart_by; vm_compute; reflexivity|]. split; [exact many_acyclic|].
  split; [apply finished; vm_compute; reflexivity|]. split; [apply finished; vm_compute; reflexivity|].
  split; [apply kept_by; vm_compute; reflexivity|]. split; [apply kept_by; vm_compute; reflexivity|].
  split; [apply alike_world; vm_compute; reflexivity|]. split; apply calm; vm_compute; reflexivity.
Qed.
(** A failing command fails both, at the end of the block or at its beginning. *)
Definition fell_last := ran (conf false) many (lit "all") (Go [] 200 fine ::
  [Do [] (MSlot 0); Go [0] 200 (says (lit "v")); Do [] (MReturn 0); Do [] (MFree 0); Do [] (MSlot 1); Go [1] 200 fine; Do [] (MReturn 1); Do [] (MFree 1);
   Do [] (MSlot 2); Go [2] 200 failing; Do [] (MReturn 2); Do [] (MFree 2); Do [] MJoin; Go [] 60 fine]).
Definition fell_first := ran (conf false) many (lit "all") (Go [] 200 fine ::
  [Do [] (MSlot 2); Go [2] 200 failing; Do [] (MReturn 2); Do [] (MFree 2); Do [] (MSlot 0); Go [0] 200 (says (lit "v")); Do [] (MReturn 0); Do [] (MFree 0);
   Do [] (MSlot 1); Go [1] 200 fine; Do [] (MReturn 1); Do [] (MFree 1); Do [] MJoin; Go [] 60 fine]).
Example C87_met_failing : exists e e', run_of (conf false) many (lit "all") fell_last.1 (Ret (Some e)) /\ run_of (conf false) many (lit "all") fell_first.1 (Ret (Some e')) /\
  globals_kept many fell_last.1 /\ globals_kept many fell_first.1 /\ same_world fell_last.1 fell_first.1 /\ undisturbed fell_last.1 /\ undisturbed fell_first.1 /\
  commands fell_last.1 = map lit ["l"; "greet v 1"; "b"]%string /\ (exists x, OStart x false ∈ fell_first.1 /\ x_cmd x = lit "z").
Proof.
  do 2 eexists. split; [apply finished; vm_compute; reflexivity|]. split; [apply finished; vm_compute; reflexivity|].
  split; [apply kept_by; vm_compute; reflexivity|]. split; [apply kept_by; vm_compute; reflexivity|].
  split; [apply alike_world; vm_compute; reflexivity|]. split; [apply calm; vm_compute; reflexivity|]. split; [apply calm; vm_compute; reflexivity|].
  split; [vm_compute; reflexivity|].
  assert (H : has (fun ev => match ev with OStart x false => bool_decide (x_cmd x = lit "z") | _ => false end) fell_first.1 = true) by (vm_compute; reflexivity).
  apply has_in in H as (ev & Hin & E). destruct ev as [| | | | | | | | | | | | | |x [|]| | | | | | | | | | | | | |]; try discriminate E. apply bool_decide_eq_true in E. eauto.
Qed.
