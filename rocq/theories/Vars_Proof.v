(** Proofs about ResolveVars. *)
From Verif Require Import Base Interp_Model Interp_Spec Interp_Proof.
Local Arguments lit : simpl never.

Section Linked.
  Context {A : Type} (R : A -> A -> Prop).

  Lemma linked_nil : linked R [].
  Proof. intros i a b H; rewrite lookup_nil in H; discriminate. Qed.

  Lemma linked_snoc l x : linked R l -> (forall y, last l = Some y -> R y x) -> linked R (l ++ [x]).
  Proof.
    intros Hl Hx i a b Ha Hb. destruct (decide (S i < length l)) as [Hi|Hi].
    - rewrite lookup_app_l in Ha, Hb by lia. eapply Hl; eassumption.
    - assert (S i = length l) as HS.
      { apply lookup_lt_Some in Hb. rewrite app_length in Hb. simpl in Hb. lia. }
      rewrite list_lookup_middle in Hb by lia. injection Hb as <-.
      rewrite lookup_app_l in Ha by lia. apply Hx. rewrite last_lookup, <- HS. exact Ha.
  Qed.

  Lemma linked_tc l i j a b : linked R l -> i < j -> l !! i = Some a -> l !! j = Some b -> tc R a b.
  Proof.
    intros Hl. revert b. induction j as [|j IH]; intros b Hij Ha Hb; [lia|].
    destruct (decide (i = j)) as [->|Hne]; [apply tc_once; eapply Hl; eassumption|].
    destruct (l !! j) as [e|] eqn:Ee.
    - eapply tc_r with (y := e); [|eapply Hl; eassumption]. apply IH; [lia|exact Ha|reflexivity].
    - exfalso. apply lookup_lt_Some in Hb. apply lookup_ge_None in Ee. lia.
  Qed.

  Lemma closes_tc l : closes R l -> exists n, tc R n n.
  Proof.
    intros (pre & n & -> & Hin & Hl). exists n.
    apply elem_of_list_lookup_1 in Hin as [i Hi].
    eapply (linked_tc _ i (length pre)); [exact Hl| | |].
    - apply lookup_lt_Some in Hi; exact Hi.
    - rewrite lookup_app_l by (apply lookup_lt_Some in Hi; exact Hi). exact Hi.
    - apply list_lookup_middle. reflexivity.
  Qed.

  Lemma Acc_no_tc n : Acc (flip R) n -> ~ tc R n n.
  Proof.
    intros HA. assert (HA' : Acc (tc (flip R)) n).
    { clear -HA. induction HA as [x Hx IH]. constructor. intros y Hy.
      revert IH. induction Hy as [y x Hyx|y z x Hyz Hzx IH']; intros IH.
      - apply IH; exact Hyx.
      - assert (Acc (tc (flip R)) z) as Hz by (apply IH'; assumption).
        inversion Hz as [Hz']. apply Hz'. apply tc_once. exact Hyz. }
    assert (Hflip : forall x y, tc R x y -> tc (flip R) y x).
    { intros x y H; induction H as [x y H|x y z H1 H2 IH]; [apply tc_once; exact H|].
      eapply tc_r; [exact IH|exact H1]. }
    clear HA. induction HA' as [x Hx IH]. intros Hxx. eapply IH; [apply Hflip; exact Hxx|exact Hxx].
  Qed.
End Linked.

Section Resolve.
  Context (getenv : str -> str) (block parent : gmap str str).
  Notation V := (Val getenv block parent).
  Notation M := (mentions block).

  (** Induction over [Val] through [expands]. *)
  Lemma Val_strong_ind (P : str -> str -> Prop) :
    (forall n raw ps v, block !! n = Some raw -> reads raw ps ->
       expands getenv (fun m w => V m w /\ P m w) ps v -> P n v) ->
    (forall n v, block !! n = None -> parent !! n = Some v -> P n v) ->
    forall n v, V n v -> P n v.
  Proof.
    intros Hb Hp. fix IH 3. intros n v H. destruct H as [n raw ps v E Hr He|n v E1 E2].
    - apply (Hb n raw ps v E Hr). clear E Hr. revert ps v He. fix IH2 3. intros ps v He.
      destruct He as [|ps o He|m w ps o Hm He|c ps o He].
      + apply expands_nil.
      + apply expands_esc. exact (IH2 ps o He).
      + apply expands_ref; [|exact (IH2 ps o He)].
        destruct Hm as [x|m w Hx Hm]; [apply means_env|]. apply means_var; [exact Hx|].
        split; [exact Hm|exact (IH m w Hm)].
      + apply expands_chr. exact (IH2 ps o He).
    - exact (Hp n v E1 E2).
  Qed.

  Lemma expands_impl (look look' : str -> str -> Prop) ps o :
    (forall n v, n ∈ refs_of ps -> (forall e, n <> lit "env." ++ e) -> look n v -> look' n v) -> expands getenv look ps o -> expands getenv look' ps o.
  Proof.
    intros Hl H; induction H as [|ps o H IH|n v ps o Hm H IH|c ps o H IH].
    - constructor.
    - constructor; auto.
    - constructor.
      + destruct Hm as [x|n v Hx Hm]; constructor; auto. apply Hl; [cbn [refs_of]; rewrite elem_of_cons; auto|exact Hx|exact Hm].
      + apply IH. intros m w Hin. apply Hl. cbn [refs_of]. rewrite elem_of_cons; auto.
    - constructor; auto.
  Qed.

  Lemma Val_fun n v : V n v -> forall v', V n v' -> v = v'.
  Proof.
    revert n v. apply (Val_strong_ind (fun n v => forall v', V n v' -> v = v')).
    - intros n raw ps v E Hr He v' H'. inversion H' as [? raw' ps' ? E' Hr' He'|? ? E' _]; subst; [|congruence].
      rewrite E in E'; injection E' as <-. pose proof (reads_fun _ _ _ Hr Hr') as <-.
      clear -He He'. revert v' He'. induction He as [|ps o H IH|m w ps o Hm H IH|c ps o H IH]; intros v' He'; inversion He'; subst.
      + reflexivity.
      + f_equal; auto.
      + f_equal; [|auto]. match goal with H2 : means _ V m ?x |- _ => apply means_cases in H2 as [(x1 & -> & ->)|[Hx2 Hl2]] end;
          apply means_cases in Hm as [(x3 & Ex & ->)|[Hx4 Hl4]].
        * apply app_inv_head in Ex as ->. reflexivity.
        * exfalso; eapply Hx4; reflexivity.
        * exfalso; eapply Hx2; exact Ex.
        * apply Hl4; exact Hl2.
      + f_equal; auto.
    - intros n v E1 E2 v' H'. inversion H'; subst; congruence.
  Qed.

  Hypothesis Hgetenv : forall x, nul_free (getenv x).
  Hypothesis Hblock : forall n v, block !! n = Some v -> nul_free v.
  Hypothesis Hparent : forall n v, parent !! n = Some v -> nul_free v.

  Lemma expands_nul_free (look : str -> str -> Prop) s ps o : reads s ps -> nul_free s ->
    (forall n v, look n v -> nul_free v) -> expands getenv look ps o -> nul_free o.
  Proof.
    intros Hps Hnul Hl. revert o Hnul.
    induction Hps as [|s ps Hs IH|t n s ps Ht Hs IH|c s ps He Hr Hs IH]; intros o Hnul Ho; inversion Ho; subst.
    - intros H; inversion H.
    - unfold nul_free in *. rewrite elem_of_app. rewrite elem_of_app in Hnul.
      intros [H|H]; [revert H; apply (bool_decide_unpack _); vm_compute; exact I|]. eapply IH; eauto.
    - unfold nul_free in *. rewrite elem_of_app in Hnul. rewrite elem_of_app.
      intros [H|H]; [|eapply IH; eauto].
      match goal with Hm : means _ _ n _ |- _ => apply means_cases in Hm as [(x & _ & ->)|[_ Hlk]] end.
      + exact (Hgetenv _ H).
      + exact (Hl _ _ Hlk H).
    - unfold nul_free in *. rewrite not_elem_of_cons in *. destruct Hnul; split; [assumption|]. eapply IH; eauto.
  Qed.

  Lemma Val_nul_free n v : V n v -> nul_free v.
  Proof.
    revert n v. apply (Val_strong_ind (fun n v => nul_free v)).
    - intros n raw ps v E Hr He. eapply expands_nul_free; [exact Hr|eapply Hblock; exact E| |exact He].
      intros m w [_ Hw]; exact Hw.
    - intros n v _ E. eapply Hparent; exact E.
  Qed.

  Record Inv (st : rstate) : Prop := {
    inv_done : forall n, n ∈ rs_resolvedSet st ->
      is_Some (block !! n) /\ Acc (flip M) n /\ exists v, rs_resolved st !! n = Some v /\ V n v;
    inv_rest : forall n, n ∉ rs_resolvedSet st -> rs_resolved st !! n = parent !! n;
    inv_resolving : forall n, n ∈ rs_resolving st <-> n ∈ rs_stack st;
    inv_nodup : NoDup (rs_stack st);
    inv_disj : forall n, n ∈ rs_stack st -> n ∉ rs_resolvedSet st;
    inv_block : forall n, n ∈ rs_stack st -> is_Some (block !! n);
    inv_linked : linked M (rs_stack st);
  }.

  (** Undefined: a block variable references, unescaped, a name that has no meaning. *)
  Definition undefined_in_block (m : str) : Prop :=
    exists x raw ps, block !! x = Some raw /\ reads raw ps /\ m ∈ refs_of ps /\
      (forall e, m <> lit "env." ++ e) /\ block !! m = None /\ parent !! m = None.

  Definition err_ok (e : ierr) : Prop :=
    match e with
    | EFuel => False
    | EVarCycle c => closes M c
    | EVarNotFound m => undefined_in_block m
    end.

  Definition one_post (n : str) (st : rstate) (r : res ierr (str * rstate)) : Prop :=
    match r with
    | Ok (v, st') => Inv st' /\ rs_stack st' = rs_stack st /\ rs_resolvedSet st ⊆ rs_resolvedSet st' /\
                     n ∈ rs_resolvedSet st' /\ rs_resolved st' !! n = Some v
    | Err e => err_ok e
    end.

  Definition one_pre (fuel : nat) (n : str) (st : rstate) : Prop :=
    Inv st /\ size block < fuel + length (rs_stack st) /\ is_Some (block !! n) /\
    (forall y, last (rs_stack st) = Some y -> M y n).

  Lemma resolve_refs_ok rec fuel x :
    (forall n st, one_pre fuel n st -> one_post n st (rec n st)) ->
    forall refs st, Inv st -> size block < fuel + length (rs_stack st) -> last (rs_stack st) = Some x ->
    (forall r, r ∈ refs -> (forall e, r <> lit "env." ++ e) -> is_Some (block !! r) -> M x r) ->
    match resolve_refs block rec refs st with
    | Ok st' => Inv st' /\ rs_stack st' = rs_stack st /\ rs_resolvedSet st ⊆ rs_resolvedSet st' /\
                forall r, r ∈ refs -> (forall e, r <> lit "env." ++ e) -> is_Some (block !! r) -> r ∈ rs_resolvedSet st'
    | Err e => err_ok e
    end.
  Proof.
    intros Hrec refs. induction refs as [|r refs IH]; intros st Hinv Hf Hlast Hm; cbn [resolve_refs].
    - split; [exact Hinv|]. split; [reflexivity|]. split; [reflexivity|]. intros r Hr; inversion Hr.
    - destruct (has_prefix env_prefix r) eqn:Ep.
      { apply has_prefix_true in Ep as [e Ee].
        specialize (IH st Hinv Hf Hlast).
        destruct (resolve_refs block rec refs st) as [st'|er] eqn:Er.
        - destruct IH as (H1 & H2 & H3 & H4); [intros; apply Hm; [apply elem_of_list_further|..]; assumption|].
          split; [exact H1|]. split; [exact H2|]. split; [exact H3|].
          intros r' Hin Hne Hb. rewrite elem_of_cons in Hin. destruct Hin as [->|Hin]; [exfalso; exact (Hne e Ee)|]. apply H4; assumption.
        - apply IH. intros; apply Hm; [apply elem_of_list_further|..]; assumption. }
      rewrite has_prefix_false in Ep.
      destruct (block !! r) as [raw|] eqn:Eb.
      2:{ specialize (IH st Hinv Hf Hlast).
        destruct (resolve_refs block rec refs st) as [st'|er] eqn:Er.
        - destruct IH as (H1 & H2 & H3 & H4); [intros; apply Hm; [apply elem_of_list_further|..]; assumption|].
          split; [exact H1|]. split; [exact H2|]. split; [exact H3|].
          intros r' Hin Hne Hb. rewrite elem_of_cons in Hin. destruct Hin as [->|Hin]; [destruct Hb; congruence|]. apply H4; assumption.
        - apply IH. intros; apply Hm; [apply elem_of_list_further|..]; assumption. }
      assert (Hpre : one_pre fuel r st).
      { split; [exact Hinv|]. split; [exact Hf|]. split; [eauto|]. intros y Hy.
        assert (y = x) as -> by congruence. apply Hm; [apply elem_of_list_here|exact Ep|eauto]. }
      pose proof (Hrec _ _ Hpre) as Hpost. destruct (rec r st) as [[v st1]|e]; [|exact Hpost].
      destruct Hpost as (Hinv1 & Hst1 & Hsub1 & Hr1 & Hv1).
      set (st2 := RState (<[r:=v]> (rs_resolved st1)) (rs_resolving st1) ({[r]} ∪ rs_resolvedSet st1) (rs_stack st1)).
      assert (st2 = st1) as ->.
      { unfold st2. destruct st1 as [a b c d]; simpl in *. f_equal; [apply insert_id; exact Hv1|].
        apply leibniz_equiv, subseteq_union. intros z Hz. apply elem_of_singleton in Hz as ->. exact Hr1. }
      specialize (IH st1 Hinv1). rewrite Hst1 in IH. specialize (IH Hf Hlast).
      destruct (resolve_refs block rec refs st1) as [st'|er] eqn:Er.
      + destruct IH as (H1 & H2 & H3 & H4); [intros; apply Hm; [apply elem_of_list_further|..]; assumption|].
        split; [exact H1|]. split; [exact H2|]. split; [etransitivity; eassumption|].
        intros r' Hin Hne Hb. rewrite elem_of_cons in Hin. destruct Hin as [->|Hin]; [apply H3; exact Hr1|]. apply H4; assumption.
      + apply IH. intros; apply Hm; [apply elem_of_list_further|..]; assumption.
  Qed.

  Lemma stack_bound st n : Inv st -> is_Some (block !! n) -> n ∉ rs_stack st -> length (rs_stack st) < size block.
  Proof.
    intros Hinv [raw Hb] Hn.
    assert (Hnd : NoDup (n :: rs_stack st)) by (constructor; [exact Hn|apply Hinv]).
    assert (Hsub : list_to_set (C:=gset str) (n :: rs_stack st) ⊆ dom block).
    { intros y Hy. rewrite elem_of_list_to_set, elem_of_cons in Hy. apply elem_of_dom.
      destruct Hy as [->|Hy]; [eauto|]. eapply inv_block; eassumption. }
    apply subseteq_size in Hsub. rewrite size_list_to_set, size_dom in Hsub by exact Hnd. simpl in Hsub. lia.
  Qed.

  Lemma resolve_one_ok fuel n st : one_pre fuel n st -> one_post n st (resolve_one getenv block parent fuel n st).
  Proof.
    revert n st; induction fuel as [|fuel IH]; intros n st (Hinv & Hf & Hb & Hlast).
    { exfalso. simpl in Hf. destruct (decide (n ∈ rs_stack st)) as [Hn|Hn].
      - assert (Hsub : list_to_set (C:=gset str) (rs_stack st) ⊆ dom block).
        { intros y Hy. rewrite elem_of_list_to_set in Hy. apply elem_of_dom. eapply inv_block; eassumption. }
        apply subseteq_size in Hsub. rewrite size_list_to_set, size_dom in Hsub by apply Hinv. lia.
      - pose proof (stack_bound _ _ Hinv Hb Hn). lia. }
    cbn [resolve_one].
    case_bool_decide as Hdone.
    { destruct (inv_done _ Hinv _ Hdone) as (_ & _ & v & Hv & HV).
      rewrite Hv. cbn [default from_option]. split; [exact Hinv|]. split; [reflexivity|]. split; [reflexivity|]. auto. }
    case_bool_decide as Hres.
    { apply (inv_resolving _ Hinv) in Hres. exists (rs_stack st), n. split; [reflexivity|]. split; [exact Hres|].
      apply linked_snoc; [apply Hinv|exact Hlast]. }
    assert (Hns : n ∉ rs_stack st) by (intros H; apply Hres; apply (inv_resolving _ Hinv); exact H).
    destruct Hb as [raw Hraw]. rewrite Hraw.
    set (st1 := RState (rs_resolved st) ({[n]} ∪ rs_resolving st) (rs_resolvedSet st) (rs_stack st ++ [n])).
    assert (Hinv1 : Inv st1).
    { constructor; simpl.
      - apply Hinv.
      - apply Hinv.
      - intros m. rewrite elem_of_union, elem_of_singleton, elem_of_app, elem_of_list_singleton, (inv_resolving _ Hinv). tauto.
      - apply NoDup_app. split; [apply Hinv|]. split; [|repeat constructor; intros H; inversion H].
        intros m Hm Hm'. apply elem_of_list_singleton in Hm' as ->. exact (Hns Hm).
      - intros m. rewrite elem_of_app, elem_of_list_singleton. intros [Hm| ->]; [eapply inv_disj; eassumption|exact Hdone].
      - intros m. rewrite elem_of_app, elem_of_list_singleton. intros [Hm| ->]; [eapply inv_block; eassumption|eauto].
      - apply linked_snoc; [apply Hinv|exact Hlast]. }
    assert (Hment : forall r, r ∈ extract_refs raw -> (forall e, r <> lit "env." ++ e) -> is_Some (block !! r) -> M n r).
    { intros r Hr He Hrb. apply scan_matches_elem in Hr as (a & t & b & Eraw & Ht).
      exists raw, a, t, b. auto. }
    pose proof (resolve_refs_ok (resolve_one getenv block parent fuel) fuel n IH (extract_refs raw) st1 Hinv1) as Hrefs.
    destruct (resolve_refs block (resolve_one getenv block parent fuel) (extract_refs raw) st1) as [st2|e].
    2:{ apply Hrefs; [simpl; rewrite app_length; simpl; lia|simpl; apply last_snoc|exact Hment]. }
    destruct Hrefs as (Hinv2 & Hst2 & Hsub2 & Hall); [simpl; rewrite app_length; simpl; lia|simpl; apply last_snoc|exact Hment|].
    simpl in Hst2, Hsub2.
    assert (HV2 : forall m v, rs_resolved st2 !! m = Some v -> m ∈ rs_resolvedSet st2 \/ (m ∉ rs_resolvedSet st2 /\ parent !! m = Some v)).
    { intros m v Hm. destruct (decide (m ∈ rs_resolvedSet st2)) as [Hin|Hin]; [left; exact Hin|right].
      split; [exact Hin|]. rewrite <- (inv_rest _ Hinv2 _ Hin). exact Hm. }
    assert (Hnf : forall m v, rs_resolved st2 !! m = Some v -> nul_free v).
    { intros m v Hm. destruct (HV2 _ _ Hm) as [Hin|[_ Hp]]; [|eapply Hparent; exact Hp].
      destruct (inv_done _ Hinv2 _ Hin) as (_ & _ & w & Hw & HVw). rewrite Hm in Hw; injection Hw as <-. eapply Val_nul_free; exact HVw. }
    destruct (reads_total raw) as [ps Hps].
    destruct (interpolate getenv (rs_resolved st2) raw) as [value|e] eqn:Ei.
    2:{ apply interpolate_Err in Ei as (ps' & pre & m & post & Hps' & Eps & [Hue Hum] & _ & ->).
        exists n, raw, ps'. split; [exact Hraw|]. split; [exact Hps'|].
        assert (Hin : m ∈ refs_of ps') by (rewrite Eps, elem_of_app; right; apply elem_of_list_here). split; [exact Hin|]. split; [exact Hue|].
        assert (Hbm : block !! m = None).
        { destruct (block !! m) as [w|] eqn:Ew; [|reflexivity].
          assert (m ∈ rs_resolvedSet st2) as Hd.
          { apply Hall; [eapply reads_refs_extract; eassumption|exact Hue|eauto]. }
          destruct (inv_done _ Hinv2 _ Hd) as (_ & _ & w' & Hw' & _). congruence. }
        split; [exact Hbm|]. rewrite <- (inv_rest _ Hinv2 m); [exact Hum|].
        intros Hd. destruct (inv_done _ Hinv2 _ Hd) as ([w' Hw'] & _). congruence. }
    apply (interpolate_Ok _ _ Hgetenv Hnf _ (Hblock _ _ Hraw)) in Ei as (ps' & Hps' & Hexp).
    pose proof (reads_fun _ _ _ Hps Hps') as <-.
    assert (HVn : V n value).
    { econstructor; [exact Hraw|exact Hps|]. 
      eapply expands_impl; [|exact Hexp]. intros m v Hmr Hme Hm. unfold in_map in Hm.
      destruct (HV2 _ _ Hm) as [Hin|[Hin Hp]].
      - destruct (inv_done _ Hinv2 _ Hin) as (_ & _ & w & Hw & HVw). rewrite Hm in Hw; injection Hw as <-. exact HVw.
      - destruct (block !! m) as [raw'|] eqn:Eb'; [|apply Val_parent; assumption].
        exfalso. apply Hin. apply Hall; [eapply reads_refs_extract; eassumption|exact Hme|eauto]. }
    assert (Hacc : Acc (flip M) n).
    { constructor. intros m (raw' & a & t & b & Er & Eq & Ht & Hme & Hmb).
      rewrite Hraw in Er; injection Er as <-.
      assert (m ∈ rs_resolvedSet st2) as Hd by (apply Hall; [apply scan_matches_elem; eauto|exact Hme|exact Hmb]).
      apply (inv_done _ Hinv2 _ Hd). }
    cbn [one_post]. rewrite Hst2. replace (length (rs_stack st ++ [n]) - 1) with (length (rs_stack st)) by (rewrite app_length; simpl; lia).
    rewrite take_app.
    split; [|split; [reflexivity|split; [simpl; apply union_subseteq_r'; exact Hsub2|split; [simpl; apply elem_of_union_l, elem_of_singleton_2; reflexivity|simpl; apply lookup_insert]]]].
    constructor; simpl.
    - intros m. rewrite elem_of_union, elem_of_singleton. intros Hm.
      destruct (decide (m = n)) as [->|Hne].
      + split; [eauto|]. split; [exact Hacc|]. exists value. rewrite lookup_insert. auto.
      + destruct Hm as [Hm|Hm]; [congruence|]. rewrite lookup_insert_ne by congruence. apply (inv_done _ Hinv2 _ Hm).
    - intros m. rewrite not_elem_of_union, not_elem_of_singleton. intros [Hm1 Hm2].
      rewrite lookup_insert_ne by congruence. apply (inv_rest _ Hinv2 _ Hm2).
    - intros m. rewrite elem_of_difference, elem_of_singleton, (inv_resolving _ Hinv2), Hst2, elem_of_app, elem_of_list_singleton.
      split; [tauto|]. intros Hm. split; [auto|]. intros ->. exact (Hns Hm).
    - apply Hinv.
    - intros m Hm. rewrite not_elem_of_union, not_elem_of_singleton. split; [intros ->; exact (Hns Hm)|].
      apply (inv_disj _ Hinv2). rewrite Hst2, elem_of_app. left; exact Hm.
    - apply Hinv.
    - apply Hinv.
  Qed.

  Lemma resolve_all_ok order st : Inv st -> rs_stack st = [] -> (forall n, n ∈ order -> is_Some (block !! n)) ->
    match resolve_all getenv block parent (S (size block)) order st with
    | Ok st' => Inv st' /\ rs_stack st' = [] /\ rs_resolvedSet st ⊆ rs_resolvedSet st' /\
                forall n, n ∈ order -> n ∈ rs_resolvedSet st'
    | Err e => err_ok e
    end.
  Proof.
    revert st; induction order as [|n order IH]; intros st Hinv Hst Ho; cbn [resolve_all].
    - split; [exact Hinv|]. split; [exact Hst|]. split; [reflexivity|]. intros n Hn; inversion Hn.
    - pose proof (resolve_one_ok (S (size block)) n st) as H1.
      destruct (resolve_one getenv block parent (S (size block)) n st) as [[v st1]|e].
      + destruct H1 as (Hinv1 & Hst1 & Hsub & Hin & _).
        { split; [exact Hinv|]. rewrite Hst. split; [simpl; lia|]. split; [apply Ho; apply elem_of_list_here|]. intros y Hy; discriminate. }
        specialize (IH st1 Hinv1). rewrite Hst1 in IH. specialize (IH Hst).
        destruct (resolve_all getenv block parent (S (size block)) order st1) as [st'|e].
        * destruct IH as (H1 & H2 & H3 & H4); [intros; apply Ho; apply elem_of_list_further; assumption|].
          split; [exact H1|]. split; [exact H2|]. split; [etransitivity; eassumption|].
          intros m Hm. rewrite elem_of_cons in Hm. destruct Hm as [->|Hm]; [apply H3; exact Hin|auto].
        * apply IH. intros; apply Ho; apply elem_of_list_further; assumption.
      + apply H1. split; [exact Hinv|]. rewrite Hst. split; [simpl; lia|]. split; [apply Ho; apply elem_of_list_here|]. intros y Hy; discriminate.
  Qed.

  Lemma Inv_init : Inv (RState parent ∅ ∅ []).
  Proof.
    constructor; simpl; try (intros n H; inversion H; fail); try reflexivity.
    - intros n. rewrite elem_of_nil, elem_of_empty. reflexivity.
    - constructor.
    - apply linked_nil.
  Qed.

  Lemma resolve_vars_in_ok order : (forall n, n ∈ order <-> is_Some (block !! n)) ->
    match resolve_vars_in getenv block parent order with
    | Ok m => mention_acyclic block /\ (forall n v, m !! n = Some v <-> V n v) /\
              (forall n, is_Some (block !! n) -> exists v, V n v)
    | Err e => err_ok e
    end.
  Proof.
    intros Ho. unfold resolve_vars_in.
    pose proof (resolve_all_ok order _ Inv_init eq_refl (fun n Hn => proj1 (Ho n) Hn)) as H.
    destruct (resolve_all getenv block parent (S (size block)) order (RState parent ∅ ∅ [])) as [st|e]; [|exact H].
    destruct H as (Hinv & _ & _ & Hall).
    split; [|split].
    - intros n Hn. assert (Hb : is_Some (block !! n)).
      { clear -Hn. assert (H : forall x y, tc M x y -> is_Some (block !! x)); [|exact (H _ _ Hn)].
        intros x y H; destruct H as [x y H|x y z H _]; destruct H as (raw & a & t & b & E & _); exists raw; exact E. }
      apply (Acc_no_tc M n); [|exact Hn]. apply (inv_done _ Hinv). apply Hall, Ho, Hb.
    - intros n v. destruct (block !! n) as [raw|] eqn:Eb.
      + destruct (inv_done _ Hinv n) as (_ & _ & w & Hw & HV); [apply Hall, Ho; eauto|].
        split; [intros E; rewrite Hw in E; injection E as <-; exact HV|].
        intros HV'. rewrite Hw. f_equal. eapply Val_fun; eassumption.
      + assert (Hd : n ∉ rs_resolvedSet st).
        { intros Hd. destruct (inv_done _ Hinv _ Hd) as ([w Hw] & _). congruence. }
        rewrite (inv_rest _ Hinv _ Hd). split; [intros E; apply Val_parent; assumption|].
        intros HV. inversion HV; subst; congruence.
    - intros n Hb. destruct (inv_done _ Hinv n) as (_ & _ & w & _ & HV); [apply Hall, Ho, Hb|eauto].
  Qed.

  Lemma err_not_both e : err_ok e -> mention_acyclic block -> (forall n, is_Some (block !! n) -> exists v, V n v) -> False.
  Proof.
    intros He Hac Hall. destruct e as [m|c|]; cbn [err_ok] in He.
    - destruct He as (x & raw & ps & Hx & Hps & Hin & Hne & Hb & Hp).
      destruct (Hall x) as [v Hv]; [eauto|]. inversion Hv as [? raw' ps' ? E' Hr' He'|? ? E' _]; subst; [|congruence].
      rewrite Hx in E'; injection E' as <-. pose proof (reads_fun _ _ _ Hps Hr') as <-.
      destruct (expands_defined getenv _ _ _ He' _ Hin) as [w Hw].
      apply means_cases in Hw as [(e & -> & _)|[_ Hw]]; [eapply Hne; reflexivity|].
      inversion Hw; subst; congruence.
    - apply closes_tc in He as [n Hn]. exact (Hac n Hn).
    - exact He.
  Qed.

  Lemma resolve_vars_in_iff order m : (forall n, n ∈ order <-> is_Some (block !! n)) ->
    resolve_vars_in getenv block parent order = Ok m <->
    mention_acyclic block /\ (forall n, is_Some (block !! n) -> exists v, V n v) /\ (forall n v, m !! n = Some v <-> V n v).
  Proof.
    intros Ho. pose proof (resolve_vars_in_ok order Ho) as H. split.
    - intros E. rewrite E in H. tauto.
    - intros (Hac & Hall & Hm). destruct (resolve_vars_in getenv block parent order) as [m'|e].
      + f_equal. destruct H as (_ & Hm' & _). apply map_eq. intros n. apply option_eq. intros v. rewrite Hm, Hm'. reflexivity.
      + exfalso. eapply err_not_both; eassumption.
  Qed.

  Lemma resolve_vars_in_err order e : (forall n, n ∈ order <-> is_Some (block !! n)) ->
    resolve_vars_in getenv block parent order = Err e -> err_ok e.
  Proof. intros Ho E. pose proof (resolve_vars_in_ok order Ho) as H. rewrite E in H. exact H. Qed.
End Resolve.

(** An iteration order of a Go map: every key exactly once, in any order. *)
Definition iteration_order {A} (m : gmap str A) (order : list str) : Prop := order ≡ₚ (map_to_list m).*1.

Global Instance iteration_order_dec {A} (m : gmap str A) order : Decision (iteration_order m order).
Proof. unfold iteration_order. apply _. Defined.

Lemma iteration_order_elem {A} (m : gmap str A) order : iteration_order m order ->
  forall n, n ∈ order <-> is_Some (m !! n).
Proof.
  intros Ho n. rewrite Ho, elem_of_list_fmap. split.
  - intros ([k v] & -> & H). apply elem_of_map_to_list in H. eauto.
  - intros [v Hv]. exists (n, v). split; [reflexivity|]. apply elem_of_map_to_list. exact Hv.
Qed.

Definition all_nul_free (m : gmap str str) : Prop := forall n v, m !! n = Some v -> nul_free v.

Lemma resolve_vars_iff getenv block parent order m :
  (forall x, nul_free (getenv x)) -> all_nul_free block -> all_nul_free (default ∅ parent) ->
  iteration_order block order ->
  resolve_vars getenv (Some block) parent order = Ok m <->
  mention_acyclic block /\ (forall n, is_Some (block !! n) -> exists v, Val getenv block (default ∅ parent) n v) /\
  (forall n v, m !! n = Some v <-> Val getenv block (default ∅ parent) n v).
Proof. intros H1 H2 H3 Ho. apply resolve_vars_in_iff; auto. apply iteration_order_elem; exact Ho. Qed.

Lemma resolve_vars_order getenv block parent o1 o2 :
  (forall x, nul_free (getenv x)) -> all_nul_free block -> all_nul_free (default ∅ parent) ->
  iteration_order block o1 -> iteration_order block o2 ->
  forall m, resolve_vars getenv (Some block) parent o1 = Ok m -> resolve_vars getenv (Some block) parent o2 = Ok m.
Proof.
  intros H1 H2 H3 Ho1 Ho2 m H. rewrite resolve_vars_iff in H by eassumption.
  apply resolve_vars_iff; assumption.
Qed.

(** Values are closed under substitution: the resolved map solves the equations
    [value(n) = template(n)[values]]. *)
Lemma resolve_vars_fixpoint getenv block parent order m :
  (forall x, nul_free (getenv x)) -> all_nul_free block -> all_nul_free (default ∅ parent) ->
  iteration_order block order ->
  resolve_vars getenv (Some block) parent order = Ok m ->
  (forall n raw, block !! n = Some raw -> exists v, m !! n = Some v /\ template_value getenv (in_map m) raw v) /\
  (forall n, block !! n = None -> m !! n = default ∅ parent !! n).
Proof.
  intros H1 H2 H3 Ho H. apply (resolve_vars_iff _ _ _ _ _ H1 H2 H3 Ho) in H as (Hac & Hall & Hm). split.
  - intros n raw Hn. destruct (Hall n) as [v Hv]; [eauto|]. exists v. split; [apply Hm; exact Hv|].
    inversion Hv as [? raw' ps ? E Hr He|? ? E _]; subst; [|congruence].
    rewrite Hn in E; injection E as <-. exists ps. split; [exact Hr|].
    eapply expands_impl; [|exact He]. intros k w _ _ Hk. apply Hm. exact Hk.
  - intros n Hn. destruct (default ∅ parent !! n) as [v|] eqn:E.
    + apply Hm. apply Val_parent; assumption.
    + destruct (m !! n) as [w|] eqn:Ew; [|reflexivity]. apply Hm in Ew. inversion Ew; subst; congruence.
Qed.

Lemma plain_text getenv vars s : nul_free s -> (forall x, nul_free (getenv x)) -> all_nul_free vars ->
  (forall a b, s <> a ++ lit "${{" ++ b) -> interpolate getenv vars s = Ok s.
Proof.
  intros Hs Hg Hv Hno. apply interpolate_Ok; [exact Hg|exact Hv|exact Hs|].
  destruct (reads_total s) as [ps Hps]. exists ps. split; [exact Hps|].
  clear Hs. induction Hps as [|s ps Hps IH|t n s ps Ht Hps IH|c s ps He Hr Hps IH].
  - constructor.
  - exfalso. apply (Hno [("$"%char)] s). reflexivity.
  - exfalso. destruct Ht as [w1 c nm w2 _ _ _ _]. apply (Hno [] ((w1 ++ (c :: nm) ++ w2 ++ lit "}}") ++ s)). 
    rewrite app_nil_l, <- app_assoc. reflexivity.
  - constructor. apply IH. intros a b E. apply (Hno (c :: a) b). rewrite E. reflexivity.
Qed.
