(** What an error of [ResolveVarsWithLocation] says, for texts of any bytes. *)
From Verif Require Import Base Interp_Model Interp_Spec Interp_Proof Vars_Proof.

Section Errors.
  Context (getenv : str -> str) (block parent : gmap str str).
  Notation M := (mentions block).

  Record Inv (st : rstate) : Prop := {
    inv_done : forall n, n ∈ rs_resolvedSet st ->
      is_Some (block !! n) /\ is_Some (rs_resolved st !! n);
    inv_rest : forall n, n ∉ rs_resolvedSet st -> rs_resolved st !! n = parent !! n;
    inv_resolving : forall n, n ∈ rs_resolving st <-> n ∈ rs_stack st;
    inv_nodup : NoDup (rs_stack st);
    inv_disj : forall n, n ∈ rs_stack st -> n ∉ rs_resolvedSet st;
    inv_block : forall n, n ∈ rs_stack st -> is_Some (block !! n);
    inv_linked : linked M (rs_stack st);
  }.

  Definition one_post (n : str) (st : rstate) (r : res ierr (str * rstate)) : Prop :=
    match r with
    | Ok (v, st') => Inv st' /\ rs_stack st' = rs_stack st /\ rs_resolvedSet st ⊆ rs_resolvedSet st' /\
                     n ∈ rs_resolvedSet st' /\ rs_resolved st' !! n = Some v
    | Err e => err_ok block parent e
    end.

  Definition one_pre (fuel : nat) (n : str) (st : rstate) : Prop :=
    Inv st /\ size block < fuel + length (rs_stack st) /\ is_Some (block !! n) /\
    (forall y, last (rs_stack st) = Some y -> M y n).

  Lemma resolve_refs_ok rec fuel x :
    (forall n st, one_pre fuel n st -> one_post n st (rec n st)) ->
    forall refs st, Inv st -> size block < fuel + length (rs_stack st) -> last (rs_stack st) = Some x ->
    (forall r, r ∈ refs -> (forall e, r <> lit "env." ++ e) -> is_Some (block !! r) -> M x r) ->
    match resolve_refs block rec refs st with
    | Ok st' => Inv st' /\ rs_stack st' = rs_stack st /\ rs_resolvedSet st ⊆ rs_resolvedSet st' /\
                forall r, r ∈ refs -> (forall e, r <> lit "env." ++ e) -> is_Some (block !! r) -> r ∈ rs_resolvedSet st'
    | Err e => err_ok block parent e
    end.
  Proof.
    intros Hrec refs. induction refs as [|r refs IH]; intros st Hinv Hf Hlast Hm; cbn [resolve_refs].
    - split; [exact Hinv|]. split; [reflexivity|]. split; [reflexivity|]. intros r Hr; inversion Hr.
    - destruct (has_prefix env_prefix r) eqn:Ep.
      { apply has_prefix_true in Ep as [e Ee].
        specialize (IH st Hinv Hf Hlast).
        destruct (resolve_refs block rec refs st) as [st'|er] eqn:Er.
        - destruct IH as (H1 & H2 & H3 & H4); [intros; apply Hm; [apply elem_of_list_further|..]; assumption|].
          split; [exact H1|]. split; [exact H2|]. split; [exact H3|].
          intros r' Hin Hne Hb. rewrite elem_of_cons in Hin. destruct Hin as [->|Hin]; [exfalso; exact (Hne e Ee)|]. apply H4; assumption.
        - apply IH. intros; apply Hm; [apply elem_of_list_further|..]; assumption. }
      rewrite has_prefix_false in Ep.
      destruct (block !! r) as [raw|] eqn:Eb.
      2:{ specialize (IH st Hinv Hf Hlast).
        destruct (resolve_refs block rec refs st) as [st'|er] eqn:Er.
        - destruct IH as (H1 & H2 & H3 & H4); [intros; apply Hm; [apply elem_of_list_further|..]; assumption|].
          split; [exact H1|]. split; [exact H2|]. split; [exact H3|].
          intros r' Hin Hne Hb. rewrite elem_of_cons in Hin. destruct Hin as [->|Hin]; [destruct Hb; congruence|]. apply H4; assumption.
        - apply IH. intros; apply Hm; [apply elem_of_list_further|..]; assumption. }
      assert (Hpre : one_pre fuel r st).
      { split; [exact Hinv|]. split; [exact Hf|]. split; [eauto|]. intros y Hy.
        assert (y = x) as -> by congruence. apply Hm; [apply elem_of_list_here|exact Ep|eauto]. }
      pose proof (Hrec _ _ Hpre) as Hpost. destruct (rec r st) as [[v st1]|e]; [|exact Hpost].
      destruct Hpost as (Hinv1 & Hst1 & Hsub1 & Hr1 & Hv1).
      set (st2 := RState (<[r:=v]> (rs_resolved st1)) (rs_resolving st1) ({[r]} ∪ rs_resolvedSet st1) (rs_stack st1)).
      assert (st2 = st1) as ->.
      { unfold st2. destruct st1 as [a b c d]; simpl in *. f_equal; [apply insert_id; exact Hv1|].
        apply leibniz_equiv, subseteq_union. intros z Hz. apply elem_of_singleton in Hz as ->. exact Hr1. }
      specialize (IH st1 Hinv1). rewrite Hst1 in IH. specialize (IH Hf Hlast).
      destruct (resolve_refs block rec refs st1) as [st'|er] eqn:Er.
      + destruct IH as (H1 & H2 & H3 & H4); [intros; apply Hm; [apply elem_of_list_further|..]; assumption|].
        split; [exact H1|]. split; [exact H2|]. split; [etransitivity; eassumption|].
        intros r' Hin Hne Hb. rewrite elem_of_cons in Hin. destruct Hin as [->|Hin]; [apply H3; exact Hr1|]. apply H4; assumption.
      + apply IH. intros; apply Hm; [apply elem_of_list_further|..]; assumption.
  Qed.

  Lemma stack_bound st n : Inv st -> is_Some (block !! n) -> n ∉ rs_stack st -> length (rs_stack st) < size block.
  Proof.
    intros Hinv [raw Hb] Hn.
    assert (Hnd : NoDup (n :: rs_stack st)) by (constructor; [exact Hn|apply Hinv]).
    assert (Hsub : list_to_set (C:=gset str) (n :: rs_stack st) ⊆ dom block).
    { intros y Hy. rewrite elem_of_list_to_set, elem_of_cons in Hy. apply elem_of_dom.
      destruct Hy as [->|Hy]; [eauto|]. eapply inv_block; eassumption. }
    apply subseteq_size in Hsub. rewrite size_list_to_set, size_dom in Hsub by exact Hnd. simpl in Hsub. lia.
  Qed.

  Lemma resolve_one_ok fuel n st : one_pre fuel n st -> one_post n st (resolve_one getenv block parent fuel n st).
  Proof.
    revert n st; induction fuel as [|fuel IH]; intros n st (Hinv & Hf & Hb & Hlast).
    { exfalso. simpl in Hf. destruct (decide (n ∈ rs_stack st)) as [Hn|Hn].
      - assert (Hsub : list_to_set (C:=gset str) (rs_stack st) ⊆ dom block).
        { intros y Hy. rewrite elem_of_list_to_set in Hy. apply elem_of_dom. eapply inv_block; eassumption. }
        apply subseteq_size in Hsub. rewrite size_list_to_set, size_dom in Hsub by apply Hinv. lia.
      - pose proof (stack_bound _ _ Hinv Hb Hn). lia. }
    cbn [resolve_one].
    case_bool_decide as Hdone.
    { destruct (inv_done _ Hinv _ Hdone) as (_ & v & Hv).
      rewrite Hv. cbn [default from_option]. split; [exact Hinv|]. split; [reflexivity|]. split; [reflexivity|]. auto. }
    case_bool_decide as Hres.
    { apply (inv_resolving _ Hinv) in Hres. exists (rs_stack st), n. split; [reflexivity|]. split; [exact Hres|].
      apply linked_snoc; [apply Hinv|exact Hlast]. }
    assert (Hns : n ∉ rs_stack st) by (intros H; apply Hres; apply (inv_resolving _ Hinv); exact H).
    destruct Hb as [raw Hraw]. rewrite Hraw.
    set (st1 := RState (rs_resolved st) ({[n]} ∪ rs_resolving st) (rs_resolvedSet st) (rs_stack st ++ [n])).
    assert (Hinv1 : Inv st1).
    { constructor; simpl.
      - apply Hinv.
      - apply Hinv.
      - intros m. rewrite elem_of_union, elem_of_singleton, elem_of_app, elem_of_list_singleton, (inv_resolving _ Hinv). tauto.
      - apply NoDup_app. split; [apply Hinv|]. split; [|repeat constructor; intros H; inversion H].
        intros m Hm Hm'. apply elem_of_list_singleton in Hm' as ->. exact (Hns Hm).
      - intros m. rewrite elem_of_app, elem_of_list_singleton. intros [Hm| ->]; [eapply inv_disj; eassumption|exact Hdone].
      - intros m. rewrite elem_of_app, elem_of_list_singleton. intros [Hm| ->]; [eapply inv_block; eassumption|eauto].
      - apply linked_snoc; [apply Hinv|exact Hlast]. }
    assert (Hment : forall r, r ∈ extract_refs raw -> (forall e, r <> lit "env." ++ e) -> is_Some (block !! r) -> M n r).
    { intros r Hr He Hrb. apply scan_matches_elem in Hr as (a & t & b & Eraw & Ht).
      exists raw, a, t, b. auto. }
    pose proof (resolve_refs_ok (resolve_one getenv block parent fuel) fuel n IH (extract_refs raw) st1 Hinv1) as Hrefs.
    destruct (resolve_refs block (resolve_one getenv block parent fuel) (extract_refs raw) st1) as [st2|e].
    2:{ apply Hrefs; [simpl; rewrite app_length; simpl; lia|simpl; apply last_snoc|exact Hment]. }
    destruct Hrefs as (Hinv2 & Hst2 & Hsub2 & Hall); [simpl; rewrite app_length; simpl; lia|simpl; apply last_snoc|exact Hment|].
    simpl in Hst2, Hsub2.
    destruct (interpolate getenv (rs_resolved st2) raw) as [value|e] eqn:Ei.
    2:{ apply interpolate_Err in Ei as (ps' & pre & m & post & Hps' & Eps & [Hue Hum] & _ & ->).
        exists n, raw, ps'. split; [exact Hraw|]. split; [exact Hps'|].
        assert (Hin : m ∈ refs_of ps') by (rewrite Eps, elem_of_app; right; apply elem_of_list_here). split; [exact Hin|]. split; [exact Hue|].
        assert (Hbm : block !! m = None).
        { destruct (block !! m) as [w|] eqn:Ew; [|reflexivity].
          assert (m ∈ rs_resolvedSet st2) as Hd.
          { apply Hall; [eapply reads_refs_extract; eassumption|exact Hue|eauto]. }
          destruct (inv_done _ Hinv2 _ Hd) as (_ & w' & Hw'). congruence. }
        split; [exact Hbm|]. rewrite <- (inv_rest _ Hinv2 m); [exact Hum|].
        intros Hd. destruct (inv_done _ Hinv2 _ Hd) as ([w' Hw'] & _). congruence. }
    cbn [one_post]. rewrite Hst2. replace (length (rs_stack st ++ [n]) - 1) with (length (rs_stack st)) by (rewrite app_length; simpl; lia).
    rewrite take_app.
    split; [|split; [reflexivity|split; [simpl; apply union_subseteq_r'; exact Hsub2|split; [simpl; apply elem_of_union_l, elem_of_singleton_2; reflexivity|simpl; apply lookup_insert]]]].
    constructor; simpl.
    - intros m. rewrite elem_of_union, elem_of_singleton. intros Hm.
      destruct (decide (m = n)) as [->|Hne].
      + split; [eauto|]. rewrite lookup_insert. eauto.
      + destruct Hm as [Hm|Hm]; [congruence|]. rewrite lookup_insert_ne by congruence. apply (inv_done _ Hinv2 _ Hm).
    - intros m. rewrite not_elem_of_union, not_elem_of_singleton. intros [Hm1 Hm2].
      rewrite lookup_insert_ne by congruence. apply (inv_rest _ Hinv2 _ Hm2).
    - intros m. rewrite elem_of_difference, elem_of_singleton, (inv_resolving _ Hinv2), Hst2, elem_of_app, elem_of_list_singleton.
      split; [tauto|]. intros Hm. split; [auto|]. intros ->. exact (Hns Hm).
    - apply Hinv.
    - intros m Hm. rewrite not_elem_of_union, not_elem_of_singleton. split; [intros ->; exact (Hns Hm)|].
      apply (inv_disj _ Hinv2). rewrite Hst2, elem_of_app. left; exact Hm.
    - apply Hinv.
    - apply Hinv.
  Qed.

  Lemma resolve_all_ok order st : Inv st -> rs_stack st = [] -> (forall n, n ∈ order -> is_Some (block !! n)) ->
    match resolve_all getenv block parent (S (size block)) order st with
    | Ok st' => Inv st' /\ rs_stack st' = [] /\ rs_resolvedSet st ⊆ rs_resolvedSet st' /\
                forall n, n ∈ order -> n ∈ rs_resolvedSet st'
    | Err e => err_ok block parent e
    end.
  Proof.
    revert st; induction order as [|n order IH]; intros st Hinv Hst Ho; cbn [resolve_all].
    - split; [exact Hinv|]. split; [exact Hst|]. split; [reflexivity|]. intros n Hn; inversion Hn.
    - pose proof (resolve_one_ok (S (size block)) n st) as H1.
      destruct (resolve_one getenv block parent (S (size block)) n st) as [[v st1]|e].
      + destruct H1 as (Hinv1 & Hst1 & Hsub & Hin & _).
        { split; [exact Hinv|]. rewrite Hst. split; [simpl; lia|]. split; [apply Ho; apply elem_of_list_here|]. intros y Hy; discriminate. }
        specialize (IH st1 Hinv1). rewrite Hst1 in IH. specialize (IH Hst).
        destruct (resolve_all getenv block parent (S (size block)) order st1) as [st'|e].
        * destruct IH as (H1 & H2 & H3 & H4); [intros; apply Ho; apply elem_of_list_further; assumption|].
          split; [exact H1|]. split; [exact H2|]. split; [etransitivity; eassumption|].
          intros m Hm. rewrite elem_of_cons in Hm. destruct Hm as [->|Hm]; [apply H3; exact Hin|auto].
        * apply IH. intros; apply Ho; apply elem_of_list_further; assumption.
      + apply H1. split; [exact Hinv|]. rewrite Hst. split; [simpl; lia|]. split; [apply Ho; apply elem_of_list_here|]. intros y Hy; discriminate.
  Qed.

  Lemma Inv_init : Inv (RState parent ∅ ∅ []).
  Proof.
    constructor; simpl; try (intros n H; inversion H; fail); try reflexivity.
    - intros n. rewrite elem_of_nil, elem_of_empty. reflexivity.
    - constructor.
    - apply linked_nil.
  Qed.

  Lemma vars_error order e : (forall n, n ∈ order <-> is_Some (block !! n)) ->
    resolve_vars_in getenv block parent order = Err e -> err_ok block parent e.
  Proof.
    intros Ho. unfold resolve_vars_in.
    pose proof (resolve_all_ok order _ Inv_init eq_refl (fun n Hn => proj1 (Ho n) Hn)) as H.
    destruct (resolve_all getenv block parent (S (size block)) order (RState parent ∅ ∅ [])) as [st|e']; [discriminate|].
    intros E. injection E as <-. exact H.
  Qed.
End Errors.
