(** C65: the published JSON schema and the decoder. *)
From Verif Require Import Base Types_Model Include_Model Doc_Model Doc_Spec Doc_Proof Doc_Item Doc_Tree Doc_File Doc_Example Schema_Model Schema_Proof.

(** What the schema cannot say about a prompt: that its settings go together. *)
Record consistent (re : str -> Prop) (p : prompt_run) : Prop := {
  co_options : p_options p <> [] <-> p_type p = lit "select" \/ p_type p = lit "multiselect";
  co_default : p_type p = lit "select" -> p_default p <> [] -> p_default p ∈ p_options p;
  co_defaults : p_defaults p <> [] -> p_type p = lit "multiselect";
  co_defaults_in : Forall (fun d => d ∈ p_options p) (p_defaults p);
  co_range : forall lo hi, p_min p = Some lo -> p_max p = Some hi -> (lo <= hi)%Z;
  co_validate : p_validate p <> [] -> p_type p = lit "input" /\ re (p_validate p);
  co_confirm : is_Some (p_confirm p) -> p_type p = lit "password";
  co_number : p_type p = lit "number" -> p_default p <> [] -> exists z, integer (p_default p) z }.

(** The prompt a mapping spells. *)
Definition spelled (Y : yaml) (l : nat) (c : list (node * node)) : prompt_run :=
  PromptRun l (text c "prompt") (text c "type") (text c "message") (strs_of Y c "platforms") (text c "default")
    (strs_of Y c "defaults") (strs_of Y c "options") (text c "placeholder") (text c "validate") (int_of Y c "min") (int_of Y c "max")
    (bool_of Y c "confirm") (text c "when").

(** An entry of the run list of a task of a document. *)
Definition run_entry (n m : node) : Prop :=
  exists l c l1 ts k l2 tc l3 its, n = YMap l c /\ field c "tasks" = Some (YMap l1 ts) /\ (k, YMap l2 tc) ∈ ts /\
    field tc "run" = Some (YSeq l3 its) /\ m ∈ its.

Section Accepted.
  Context (Y : yaml) (sc : str -> str -> json) (Hag : agrees Y sc).
  Notation fits := (fits sc).
  Notation re := (fun s => y_regexp Y s = true).
  Notation small := (fun z => in_int64 z = true).

  Ltac known H := eapply entry_known in H; [|reflexivity].
  Ltac unknown H := exfalso; eapply entry_unknown; [|exact H]; reflexivity.
  Ltac cases Hk := repeat (apply one_of_cons in Hk as [Hk|Hk]); [..|apply one_of_nil in Hk; contradiction].
  Ltac close H := first
    [ unknown H
    | known H; first [ eapply fits_text; eassumption | eapply fits_env; eassumption | eapply fits_bool; eassumption | eapply fits_platforms; eassumption
                     | eapply fits_strs in H as (? & ? & _); [eexists; eassumption|eassumption]
                     | eapply fits_int in H as (? & ? & _); [eexists; eassumption|eassumption] ] ].
  Ltac entry := let H := fresh "H" in let Hk := fresh "Hk" in
    intros H; constructor; intros Hk; try (cases Hk); rewrite Hk in H; close H.

  Notation all_fit props c := (Forall (fun kv => entry_fits sc props (value_of kv.1) kv.2) c).
  Notation required c k := (exists kv, kv ∈ c /\ value_of kv.1 = lit k).

  Lemma prop_key x ps s : prop_at x ps = Some s -> x ∈ ps.*1.
  Proof. induction ps as [|[k' s'] r IH]; [discriminate|]. cbn [prop_at]. destruct (decide (k' = x)) as [->|]; intros H; [apply elem_of_list_here|apply elem_of_list_further, IH, H]. Qed.
  Lemma entry_key props x v : entry_fits sc props x v -> x ∈ props.*1.
  Proof. unfold entry_fits. destruct (prop_at x props) eqn:E; [intros _; eapply prop_key; exact E|contradiction]. Qed.
  Lemma no_entry props c k : all_fit props c -> prop_at (lit k) props = None -> field c k = None.
  Proof. intros HF E. destruct (field c k) eqn:Ef; [|reflexivity]. eapply field_fits in Ef; [|exact HF]. exfalso. eapply entry_unknown; eassumption. Qed.
  Lemma no_has props c k : all_fit props c -> prop_at (lit k) props = None -> ~ has c k.
  Proof. intros HF E H. apply has_field_some in H as [v H]. rewrite (no_entry _ _ _ HF E) in H. discriminate. Qed.
  Lemma no_text props c k : all_fit props c -> prop_at (lit k) props = None -> text c k = [].
  Proof. intros HF E. unfold text. rewrite (no_entry _ _ _ HF E). reflexivity. Qed.
  (** A required string. *)
  Lemma some_text props c k m enum pat : all_fit props c -> prop_at (lit k) props = Some (SString m enum pat) -> required c k ->
    m <= length (text c k) /\ match enum with Some e => text c k ∈ e | None => True end /\ opt_pattern pat (text c k) = true.
  Proof.
    intros HF E H. apply has_field_some in H as [v H]. unfold text. rewrite H. eapply field_fits in H; [|exact HF]. eapply entry_known in H; [|exact E].
    apply (fits_string Y sc Hag) in H as (l & t & s & -> & _ & ? & ? & ?). auto.
  Qed.
  Lemma required_text props c k enum pat : all_fit props c -> prop_at (lit k) props = Some (SString 1 enum pat) -> required c k -> text c k <> [].
  Proof. intros HF E H. destruct (some_text _ _ _ _ _ _ HF E H) as [Hl _]. destruct (text c k); simpl in Hl; [lia|discriminate]. Qed.

  (** The kind of an item whose schema has exactly one of the four keys. *)
  Lemma kind_of props c k enum pat : all_fit props c -> required c k -> prop_at (lit k) props = Some (SString 1 enum pat) ->
    (forall k', In k' ["cmd"; "task"; "log"; "prompt"]%string -> k' <> k -> prop_at (lit k') props = None) ->
    In k ["cmd"; "task"; "log"; "prompt"]%string ->
    prop_at (lit "parallel") props = None -> (forall x v, entry_fits sc props x v -> entry_ok Y x v) -> the_kind Y c k.
  Proof.
    intros HF Hr E Hne Hk Hp He. split; [|split].
    - eapply no_has; eassumption.
    - eapply Forall_impl; [exact HF|]. intros kv. apply He.
    - intros k' Hin. split.
      + intros Ht. destruct (string_dec k' k) as [|Hd]; [assumption|]. destruct Ht. eapply no_text; [exact HF|]. apply Hne; assumption.
      + intros ->. eapply required_text; eassumption.
  Qed.

  Ltac kind HF Hr := eapply (kind_of _ _ _ _ _ HF Hr); [reflexivity| |simpl; tauto|reflexivity|intros x v; entry];
    (let Hin := fresh in let Hne := fresh in intros k' Hin Hne; simpl in Hin; decompose [or] Hin; subst; (reflexivity || contradiction)).

  Lemma cmd_becomes n : fits s_cmd n -> exists it, becomes Y n it /\ simple it.
  Proof.
    intros H. apply (fits_closed Y sc Hag) in H as (l & c & -> & HN & HF & Hr). apply Forall_cons in Hr as [Hr _].
    eexists. split; [apply B_cmd|exact I]. kind HF Hr.
  Qed.
  Lemma task_becomes n : fits s_task_ref n -> exists it, becomes Y n it /\ simple it.
  Proof.
    intros H. apply (fits_closed Y sc Hag) in H as (l & c & -> & HN & HF & Hr). apply Forall_cons in Hr as [Hr _].
    eexists. split; [apply B_task|exact I]. kind HF Hr.
  Qed.
  Lemma log_becomes n : fits s_log n -> exists it, becomes Y n it /\ simple it.
  Proof.
    intros H. apply (fits_closed Y sc Hag) in H as (l & c & -> & HN & HF & Hr). apply Forall_cons in Hr as [Hr _].
    eexists. split; [apply B_log|exact I]; [kind HF Hr|].
    unfold or_else. destruct (field c "level") as [v|] eqn:Ef.
    - assert (Ht : text c "level" = value_of v) by (unfold text; rewrite Ef; reflexivity). rewrite Ht.
      eapply field_fits in Ef; [|exact HF]. known Ef. apply (fits_string Y sc Hag) in Ef as (l' & t & s & -> & _ & _ & Hs & _). simpl value_of. unfold one_of.
      destruct s; [|exact Hs]. exfalso. pose proof (bool_decide_eq_true_2 _ Hs) as Hb. vm_compute in Hb. discriminate Hb.
    - assert (Ht : text c "level" = []) by (unfold text; rewrite Ef; reflexivity). rewrite Ht. unfold one_of. simpl. apply elem_of_list_further, elem_of_list_here.
  Qed.

  Lemma child_becomes n : fits s_child n -> exists it, becomes Y n it /\ simple it.
  Proof.
    intros H. apply fits_one_of in H as (s & Hs & H). repeat (apply elem_of_cons in Hs as [->|Hs]; [eauto using cmd_becomes, task_becomes, log_becomes|]).
    apply elem_of_nil in Hs. contradiction.
  Qed.

  (** Entries of a parallel block. *)
  Lemma block_becomes n : fits s_parallel n -> exists it, becomes Y n it.
  Proof.
    intros H. apply (fits_closed Y sc Hag) in H as (l & c & -> & HN & HF & Hr). apply Forall_cons in Hr as [Hr _].
    apply has_field_some in Hr as [v Hv]. pose proof (field_fits _ _ _ _ _ HF Hv) as Hp. known Hp. apply (fits_array Y sc Hag) in Hp as (l' & its & -> & Hits & Hlen).
    assert (Hb : exists items, Forall2 (becomes Y) its items /\ Forall simple items).
    { clear Hv Hlen. induction Hits as [|n its Hn Hits IH]; [exists []; split; constructor|]. destruct IH as (items & ? & ?). destruct (child_becomes _ Hn) as (it & ? & ?).
      exists (it :: items). split; constructor; assumption. }
    destruct Hb as (items & Hb & Hs). eexists. eapply B_par; [|exact Hv| |exact Hb|exact Hs]; [|destruct its; [simpl in Hlen; lia|discriminate]].
    eapply Forall_impl; [exact HF|]. intros [k w] H. cbn [fst snd] in *. generalize dependent (value_of k). intros x H. constructor.
    - eapply entry_key in H. exact H.
    - intros ->. known H. apply (fits_array Y sc Hag) in H as (? & ? & -> & _). eauto.
    - intros ->. known H. pose proof (fits_text Y sc Hag _ _ _ _ H). apply (fits_string Y sc Hag) in H as (? & ? & ? & -> & _ & _ & ? & _). split; assumption.
    - intros ->. known H. apply (fits_int Y sc Hag) in H as (z & ? & ?). eauto.
    - intros Hk. cases Hk; subst x; known H; eapply fits_bool; eassumption.
    - intros ->. known H. eapply fits_platforms; eassumption.
  Qed.

  Lemma prompt_becomes l c : fits s_prompt (YMap l c) -> consistent re (spelled Y l c) -> becomes Y (YMap l c) (RPrompt (spelled Y l c)).
  Proof.
    intros H Hc. apply (fits_closed Y sc Hag) in H as (l' & c' & [= <- <-] & HN & HF & Hr).
    apply Forall_cons in Hr as [Hr1 Hr]. apply Forall_cons in Hr as [Hr2 Hr]. apply Forall_cons in Hr as [Hr3 _].
    eapply B_prompt; [kind HF Hr1|reflexivity|]. destruct Hc. constructor; try assumption.
    - apply var_name_spec. exact (proj2 (proj2 (some_text _ c "prompt" 1 None (Some PVar) HF eq_refl Hr1))).
    - exact (proj1 (proj2 (some_text _ c "type" 0 (Some (map lit ["confirm"; "input"; "select"; "multiselect"; "password"; "number"]%string)) None HF eq_refl Hr2))).
    - eapply required_text; [exact HF|reflexivity|exact Hr3].
    - rewrite co_options0. rewrite !one_of_cons, one_of_nil. tauto.
  Qed.

  Lemma becomes_consistent l c it : fits s_prompt (YMap l c) -> becomes Y (YMap l c) it -> consistent re (spelled Y l c).
  Proof.
    intros H Hb. apply (fits_closed Y sc Hag) in H as (l' & c' & [= <- <-] & HN & HF & Hr).
    apply Forall_cons in Hr as [Hr1 _]. assert (Ht : text c "prompt" <> []) by (eapply required_text; [exact HF|reflexivity|exact Hr1]).
    inversion Hb as [? ? Hk|? ? Hk|? ? Hk|? ? ? Hk -> Ho|? ? ? ? ? ? Hf]; subst; try (apply (proj2 (proj2 Hk)) in Ht; [discriminate Ht|simpl; tauto]).
    - destruct Ho. constructor; try assumption. cbn in *. rewrite po_options, !one_of_cons, one_of_nil. tauto.
    - rewrite (no_entry _ _ "parallel" HF eq_refl) in Hf. discriminate.
  Qed.

  (** A run item: only a prompt can fail. *)
  Lemma item_becomes n : fits s_item n ->
    ((exists it, becomes Y n it) <-> (forall l c, n = YMap l c -> has c "prompt" -> consistent re (spelled Y l c))).
  Proof.
    intros H. apply fits_one_of in H as (s & Hs & H).
    assert (Hp : (exists it, becomes Y n it) -> (forall l c, n = YMap l c -> ~ has c "prompt") ->
      ((exists it, becomes Y n it) <-> (forall l c, n = YMap l c -> has c "prompt" -> consistent re (spelled Y l c)))).
    { intros He Hn. split; [|auto]. intros _ l c E Hh. destruct (Hn l c E Hh). }
    assert (Hno : forall props req m, fits (SObject props req None None m) n -> prop_at (lit "prompt") props = None -> forall l c, n = YMap l c -> ~ has c "prompt").
    { intros props req m Hf E l c ->. apply (fits_closed Y sc Hag) in Hf as (l' & c' & [= <- <-] & _ & HF & _). eapply no_has; eassumption. }
    apply elem_of_cons in Hs as [->|Hs]. { apply Hp; [destruct (cmd_becomes _ H) as (? & ? & _); eauto|eapply Hno; [exact H|reflexivity]]. }
    apply elem_of_cons in Hs as [->|Hs]. { apply Hp; [destruct (task_becomes _ H) as (? & ? & _); eauto|eapply Hno; [exact H|reflexivity]]. }
    apply elem_of_cons in Hs as [->|Hs]. { apply Hp; [destruct (log_becomes _ H) as (? & ? & _); eauto|eapply Hno; [exact H|reflexivity]]. }
    apply elem_of_cons in Hs as [->|Hs].
    { split.
      - intros [it Hit] l c -> _. eapply becomes_consistent; eassumption.
      - intros Hc. pose proof H as H'. apply (fits_closed Y sc Hag) in H' as (l & c & -> & _ & _ & Hr). apply Forall_cons in Hr as [Hr _].
        eexists. apply prompt_becomes; [exact H|]. eapply Hc; [reflexivity|exact Hr]. }
    apply elem_of_cons in Hs as [->|Hs]. { apply Hp; [apply block_becomes; exact H|eapply Hno; [exact H|reflexivity]]. }
    apply elem_of_nil in Hs. contradiction.
  Qed.

  Definition item_fine (m : node) : Prop := forall l c, m = YMap l c -> has c "prompt" -> consistent re (spelled Y l c).
  Definition run_fine (v : node) : Prop := match v with YSeq _ its => Forall item_fine its | _ => False end.

  Lemma unique_field c (kv : node * node) (k : string) : NoDup (map (fun kv => value_of kv.1) c) -> kv ∈ c -> value_of kv.1 = lit k -> field c k = Some kv.2.
  Proof.
    intros HN Hin Hk. destruct (has_field_some c k) as [v Hv]; [eauto|]. rewrite Hv. apply field_in in Hv as (kv' & Hin' & Hk' & <-).
    enough (kv' = kv) by (subst; reflexivity). revert HN Hin Hin'. induction c as [|a c IH]; [intros _ H; apply elem_of_nil in H; contradiction|].
    cbn [map]. rewrite NoDup_cons. intros [Ha HN] Hin Hin'. apply elem_of_cons in Hin as [->|Hin], Hin' as [->|Hin']; [reflexivity| | |auto].
    - destruct Ha. apply elem_of_list_fmap. exists kv'. split; [congruence|assumption].
    - destruct Ha. apply elem_of_list_fmap. exists kv. split; [congruence|assumption].
  Qed.

  Lemma task_fine k n : fits s_task n -> exists l c, n = YMap l c /\
    ((exists t, task_means Y k n t) <-> match field c "run" with Some v => run_fine v | None => True end).
  Proof.
    intros H. apply (fits_closed Y sc Hag) in H as (l & c & -> & HN & HF & _). exists l, c. split; [reflexivity|].
    assert (Hrun : forall v, field c "run" = Some v -> exists l' its, v = YSeq l' its /\ Forall (fits s_item) its).
    { intros v Hv. pose proof (field_fits _ _ _ _ _ HF Hv) as Hp. known Hp. apply (fits_array Y sc Hag) in Hp as (l' & its & -> & Hits & _). eauto. }
    split.
    - intros (t & l' & c' & [= <- <-] & HE & _ & Hr). destruct (field c "run") as [v|]; [|exact I]. destruct Hr as (l'' & its & -> & HB).
      destruct (Hrun _ eq_refl) as (? & ? & [= <- <-] & Hits). cbn [run_fine]. clear Hrun HE. induction HB as [|n it ns its' Hn HB IH]; [constructor|].
      apply Forall_cons in Hits as [H1 H2]. constructor; [|exact (IH H2)]. exact (proj1 (item_becomes n H1) (ex_intro _ it Hn)).
    - intros Hfine.
      assert (Hits : forall l' its, field c "run" = Some (YSeq l' its) -> Forall (fun n => exists it, becomes Y n it) its).
      { intros l' its E. destruct (Hrun _ E) as (? & ? & [= <- <-] & Hits). rewrite E in Hfine. cbn [run_fine] in Hfine.
        apply Forall_forall. intros n Hn. rewrite Forall_forall in Hits, Hfine. exact (proj2 (item_becomes n (Hits _ Hn)) (Hfine _ Hn)). }
      assert (HE : Forall (fun kv => task_entry_ok Y (value_of kv.1) kv.2) c).
      { apply Forall_forall. intros [k' v] Hin. pose proof HF as HF'. rewrite Forall_forall in HF'. specialize (HF' _ Hin). cbn [fst snd] in *.
        assert (Hk' : value_of k' = lit "run" -> field c "run" = Some v) by (intros E; exact (unique_field c (k', v) "run" HN Hin E)).
        clear Hin. revert HF' Hk'. generalize (value_of k'). intros x Hx Hk'. constructor.
        - intros Hk. cases Hk; rewrite Hk in Hx; close Hx.
        - intros Hk. cases Hk; rewrite Hk in Hx; close Hx.
        - intros Hk. cases Hk; rewrite Hk in Hx; close Hx.
        - intros ->. close Hx.
        - intros E. specialize (Hk' E). destruct (Hrun _ Hk') as (l' & its & -> & _). exists l', its. split; [reflexivity|]. eapply Hits. exact Hk'. }
      assert (Hr : exists rs, match field c "run" with None => rs = [] | Some n => exists l' its, n = YSeq l' its /\ Forall2 (becomes Y) its rs end).
      { destruct (field c "run") as [v|] eqn:Er; [|eauto]. destruct (Hrun _ eq_refl) as (l' & its & -> & _). specialize (Hits _ _ eq_refl).
        clear - Hits. assert (He : exists rs, Forall2 (becomes Y) its rs).
        { induction Hits as [|n its [it Hn] _ [rs IH]]; [exists []; constructor|]. exists (it :: rs). constructor; assumption. }
        destruct He as [rs He]. exists rs, l', its. auto. }
      destruct Hr as [rs Hr]. eexists. exists l, c. split; [reflexivity|]. split; [exact HE|].
      instantiate (1 := Task _ _ _ _ _ _ _ _ _ _ _ _ _ _ rs). cbn [t_run]. split; [reflexivity|exact Hr].
  Qed.

  Lemma include_fits n : fits s_include n -> is_Some (y_include Y n).
  Proof.
    intros H. apply (fits_closed Y sc Hag) in H as (l & c & -> & HN & HF & Hr). apply Forall_cons in Hr as [(kv & Hin & Hk) _].
    assert (Hkey : forall kv', kv' ∈ c -> value_of kv'.1 = lit "babfile").
    { intros kv' Hin'. rewrite Forall_forall in HF. apply HF in Hin'. apply entry_key in Hin'. apply elem_of_list_singleton in Hin'. exact Hin'. }
    destruct c as [|a [|b c]].
    - apply elem_of_nil in Hin. contradiction.
    - apply elem_of_list_singleton in Hin. subst a. apply Forall_cons in HF as [HF _]. rewrite Hk in HF. known HF. destruct kv as [k v]. cbn [fst snd] in *.
      apply (fits_string Y sc Hag) in HF as (l' & t & s & -> & E & _). eexists. apply (ag_include _ _ Hag); assumption.
    - cbn [map] in HN. apply NoDup_cons in HN as [HN _]. destruct HN. rewrite (Hkey a), <- (Hkey b); [apply elem_of_list_here|apply elem_of_list_further, elem_of_list_here|apply elem_of_list_here].
  Qed.

  Lemma means_exists l c : Forall (fun kv => section_ok Y (value_of kv.1) kv.2) c -> exists s, unmarshal_node Y (YMap l c) = Ok s.
  Proof.
    intros H. unfold unmarshal_node. rewrite root_fields_loop. apply (loop_ok (root_step Y) (fun k v => section_ok Y (value_of k) v) c no_schema (root_step_ok Y)) in H.
    destruct (loop (root_step Y) c no_schema) as [es s]. cbn [fst] in H. subst es. eauto.
  Qed.

  Theorem schema_accepted n : fits s_babfile n ->
    ((exists s, unmarshal_node Y n = Ok s) <-> (forall l c, run_entry n (YMap l c) -> has c "prompt" -> consistent re (spelled Y l c))).
  Proof.
    intros H. apply (fits_closed Y sc Hag) in H as (l & c & -> & HN & HF & _).
    assert (Htasks : forall v, field c "tasks" = Some v -> exists l' es, v = YMap l' es /\ NoDup (map (fun kv => value_of kv.1) es) /\ Forall (fun kv => fits s_task kv.2) es).
    { intros v Hv. pose proof (field_fits _ _ _ _ _ HF Hv) as Hp. known Hp. apply (fits_object Y sc Hag) in Hp as (l' & es & -> & HN' & HF' & _).
      exists l', es. split; [reflexivity|]. split; [exact HN'|]. eapply Forall_impl; [exact HF'|]. intros kv [_ Hkv]. exact Hkv. }
    split.
    - intros [s Hs] l0 c0 (l' & c' & l1 & ts & k & l2 & tc & l3 & its & [= <- <-] & Ht & Hin & Hr & Hm) Hh.
      apply unmarshal_node_spec in Hs as (l' & c' & [= <- <-] & HS & _).
      pose proof Ht as Ht'. apply field_in in Ht' as (kv & Hkv & Ek & Ev). rewrite Forall_forall in HS. specialize (HS _ Hkv). rewrite Ev in HS.
      destruct (so_tasks _ _ _ HS Ek) as (l' & es & [= <- <-] & _ & HT). destruct (Htasks _ Ht) as (? & ? & [= <- <-] & _ & Hfit).
      rewrite Forall_forall in HT, Hfit. specialize (HT _ Hin). specialize (Hfit _ Hin). cbn [fst snd] in *.
      destruct (task_fine k _ Hfit) as (? & ? & [= <- <-] & Hiff). apply Hiff in HT. rewrite Hr in HT. cbn [run_fine] in HT. rewrite Forall_forall in HT. exact (HT _ Hm _ _ eq_refl Hh).
    - intros Hall. apply means_exists. apply Forall_forall. intros [k v] Hin. pose proof HF as HF'. rewrite Forall_forall in HF'. specialize (HF' _ Hin). cbn [fst snd] in *.
      assert (Hk' : value_of k = lit "tasks" -> field c "tasks" = Some v) by (intros E; exact (unique_field c (k, v) "tasks" HN Hin E)).
      clear Hin. revert HF' Hk'. generalize (value_of k). intros x Hx Hk'. constructor.
      + intros Hk. cases Hk; rewrite Hk in Hx; close Hx.
      + intros Hk. cases Hk; rewrite Hk in Hx; close Hx.
      + intros ->. close Hx.
      + intros E. specialize (Hk' E). destruct (Htasks _ Hk') as (l' & es & -> & HN' & Hfit). exists l', es. split; [reflexivity|]. split; [exact HN'|].
        apply Forall_forall. intros [k' v'] Hin. rewrite Forall_forall in Hfit. specialize (Hfit _ Hin). cbn [fst snd] in *.
        destruct (task_fine k' _ Hfit) as (l2 & tc & -> & Hiff). apply Hiff. destruct (field tc "run") as [w|] eqn:Er; [|exact I].
        apply (fits_closed Y sc Hag) in Hfit as (? & ? & [= <- <-] & _ & HFt & _). pose proof (field_fits _ _ _ _ _ HFt Er) as Hp. known Hp. apply (fits_array Y sc Hag) in Hp as (l3 & its & -> & _).
        cbn [run_fine]. apply Forall_forall. intros m Hm l0 c0 -> Hh. apply Hall; [|exact Hh]. exists l, c, l', es, k', l2, tc, l3, its. auto.
      + intros ->. known Hx. apply (fits_object Y sc Hag) in Hx as (l' & es & -> & _ & HF' & _). exists l', es. split; [reflexivity|].
        eapply Forall_impl; [exact HF'|]. intros kv [_ Hkv]. apply include_fits. exact Hkv.
  Qed.
End Accepted.

(** C65. A document that is valid against the published schema (without aliases, its
    integers no larger than 64 bits) is decoded without an error, except exactly when
    the settings of one of its prompts contradict each other. *)
Theorem C65_schema_valid_decoded Y sc n j : agrees Y sc -> shows sc (fun z => in_int64 z = true) False n j -> valid s_babfile j = true ->
  ((exists s, unmarshal_node Y n = Ok s) <->
   (forall l c, run_entry n (YMap l c) -> has c "prompt" -> consistent (fun s => y_regexp Y s = true) (spelled Y l c))).
Proof. intros Hag Hs Hv. apply (schema_accepted Y sc Hag). exists j. auto. Qed.

(** So a valid document without prompts is decoded. *)
Theorem C65_schema_valid_no_prompt Y sc n j : agrees Y sc -> shows sc (fun z => in_int64 z = true) False n j -> valid s_babfile j = true ->
  (forall l c, run_entry n (YMap l c) -> ~ has c "prompt") -> exists s, unmarshal_node Y n = Ok s.
Proof. intros Hag Hs Hv Hp. apply (C65_schema_valid_decoded _ _ _ _ Hag Hs Hv). intros l c Hr Hh. destruct (Hp _ _ Hr Hh). Qed.

(** Reading the scalars of the toy library. *)
Definition jsc (t v : str) : json :=
  if is v "true" then JBool true else if is v "false" then JBool false else match atoi v with Some z => JInt z | None => JStr v end.
Lemma toy_agrees doc : agrees (toy doc) jsc.
Proof.
  unfold jsc. constructor.
  - intros t v. destruct (is v "true"), (is v "false"), (atoi v); exact I.
  - intros t v s. destruct (is v "true"), (is v "false"), (atoi v); congruence.
  - intros l t v b. cbn. destruct (is v "true"), (is v "false"), (atoi v); congruence.
  - intros l t v z H _. cbn. destruct (is v "true"), (is v "false"), (atoi v) eqn:E; try discriminate H. congruence.
  - intros l ns H. cbn. induction H as [|n ns (l' & t & v & -> & _) _ IH]; [reflexivity|]. cbn. rewrite IH. reflexivity.
  - intros l k l' t v Hk _. cbn. unfold field, field_at, under. rewrite filter_cons, decide_True by exact Hk. reflexivity.
Qed.

(** The JSON value of a node, where it has one. *)
Fixpoint to_json (n : node) : json :=
  match n with
  | YScalar _ t v => jsc t v
  | YSeq _ ns => JArr (map to_json ns)
  | YMap _ c => JObj (map (fun kv => (value_of kv.1, to_json kv.2)) c)
  | YAlias _ _ t => to_json t
  end.
Fixpoint no_alias (n : node) : bool :=
  match n with
  | YScalar _ _ _ => true
  | YSeq _ ns => forallb no_alias ns
  | YMap _ c => bool_decide (NoDup (map (fun kv => value_of kv.1) c)) && forallb (fun kv => no_alias kv.2) c
  | YAlias _ _ _ => false
  end.
Lemma jsc_small t v z : jsc t v = JInt z -> in_int64 z = true.
Proof.
  unfold jsc. destruct (is v "true"), (is v "false"), (atoi v) eqn:E; try discriminate. intros [= <-]. revert E. unfold atoi.
  repeat (match goal with |- context [match ?x with _ => _ end] => destruct x eqn:? end); congruence.
Qed.
Lemma to_json_shows al : forall n, no_alias n = true -> shows jsc (fun z => in_int64 z = true) al n (to_json n).
Proof.
  fix IH 1. intros [l t v|l ns|l c|l a t]; cbn [no_alias to_json]; intros H.
  - constructor. apply jsc_small.
  - constructor. induction ns as [|n ns IHn]; [constructor|]. cbn [forallb] in H. apply andb_true_iff in H as [H1 H2]. constructor; [apply IH; exact H1|apply IHn; exact H2].
  - apply andb_true_iff in H as [H0 H]. constructor; [apply bool_decide_eq_true in H0; exact H0|]. clear H0.
    induction c as [|[k v] c IHc]; [constructor|]. cbn [forallb snd] in H. apply andb_true_iff in H as [H1 H2]. constructor; [split; [reflexivity|apply IH; exact H1]|apply IHc; exact H2].
  - discriminate.
Qed.
Lemma shows_to_json ok al : forall n j, shows jsc ok al n j -> j = to_json n.
Proof.
  fix IH 1. intros [l t v|l ns|l c|l a t] j H; inversion H as [? ? ? Hz|? ? js HF|? ? js HN HF|? ? ? ? ? Ht]; subst; cbn [to_json].
  - reflexivity.
  - f_equal. clear H. revert js HF. induction ns as [|n ns IHn]; intros js HF; inversion HF; subst; [reflexivity|]. cbn [map]. f_equal; [apply IH; assumption|apply IHn; assumption].
  - f_equal. clear H HN. revert js HF. induction c as [|[k v] c IHc]; intros js HF; [inversion HF; reflexivity|]. inversion HF as [|? [k' j'] ? js' [E Hj] HF']; subst. cbn [fst snd map] in *. subst k'. f_equal; [|apply IHc; assumption].
    f_equal. apply IH. exact Hj.
  - apply IH. exact Ht.
Qed.

(** A document that uses most of the language. *)
Definition document : node :=
  mp 1 [kv 1 "vars" (mp 2 [kv 2 "region" (sc 2 "eu")]);
        kv 3 "includes" (mp 4 [kv 4 "lib" (mp 5 [kv 5 "babfile" (sc 5 "./lib/babfile.prod.yml")])]);
        kv 6 "tasks" (mp 7
          [kv 7 "build" (mp 8 [kv 8 "deps" (seq 8 [sc 8 "lib:gen"]);
             kv 9 "run" (seq 9 [mp 10 [kv 10 "cmd" (sc 10 "make"); kv 11 "silent" (sc 11 "true"); kv 12 "platforms" (seq 12 [sc 12 "linux"])];
               mp 13 [kv 13 "parallel" (seq 14 [mp 14 [kv 14 "task" (sc 14 "lib:a")]; mp 15 [kv 15 "log" (sc 15 "hi"); kv 15 "level" (sc 15 "warn")]]);
                      kv 16 "limit" (sc 16 "2")]])]);
           kv 17 "ask" (mp 18 [kv 18 "run" (seq 19 [mp 19 [kv 19 "prompt" (sc 19 "where"); kv 20 "type" (sc 20 "select"); kv 21 "message" (sc 21 "Where?");
               kv 22 "options" (seq 22 [sc 22 "eu"; sc 22 "us"]); kv 23 "default" (sc 23 "us")]])])])].
(** The same with a default that is no option. *)
Definition bad_prompt : node :=
  mp 19 [kv 19 "prompt" (sc 19 "where"); kv 20 "type" (sc 20 "select"); kv 21 "message" (sc 21 "Where?");
         kv 22 "options" (seq 22 [sc 22 "eu"; sc 22 "us"]); kv 23 "default" (sc 23 "mars")].
Definition bad_document : node := mp 1 [kv 17 "tasks" (mp 17 [kv 17 "ask" (mp 18 [kv 18 "run" (seq 19 [bad_prompt])])])].

Example document_valid : shows jsc (fun z => in_int64 z = true) False document (to_json document) /\ valid s_babfile (to_json document) = true /\
  exists s, unmarshal_node Y0 document = Ok s.
Proof. split; [apply to_json_shows; vm_compute; reflexivity|]. split; [vm_compute; reflexivity|]. vm_compute. eexists. reflexivity. Qed.

(** What the schema cannot see: it takes a prompt whose default is no option, and bab does not. *)
Theorem C65_prompt_refuted : exists n j, shows jsc (fun z => in_int64 z = true) False n j /\ valid s_babfile j = true /\
  ~ exists s, unmarshal_node Y0 n = Ok s.
Proof.
  exists bad_document, (to_json bad_document). split; [apply to_json_shows; vm_compute; reflexivity|]. split; [vm_compute; reflexivity|].
  intros [s H]. vm_compute in H. discriminate H.
Qed.
Example bad_prompt_contradicts : ~ consistent (fun s => y_regexp Y0 s = true) (spelled Y0 19
  [kv 19 "prompt" (sc 19 "where"); kv 20 "type" (sc 20 "select"); kv 21 "message" (sc 21 "Where?");
   kv 22 "options" (seq 22 [sc 22 "eu"; sc 22 "us"]); kv 23 "default" (sc 23 "mars")]).
Proof. intros [_ H _ _ _ _ _ _]. specialize (H eq_refl). assert (Hn : lit "mars" <> []) by discriminate. specialize (H Hn). pose proof (bool_decide_eq_true_2 _ H) as Hb. vm_compute in Hb. discriminate Hb. Qed.

(** An alias: the editor looks through it, bab refuses it as the command list. *)
Definition aliased : node :=
  mp 1 [kv 1 "tasks" (mp 2 [kv 2 "a" (mp 3 [kv 3 "run" (seq 4 [mp 4 [kv 4 "cmd" (sc 4 "make")]])]);
                            kv 5 "b" (mp 6 [kv 6 "run" (YAlias 6 (lit "steps") (seq 4 [mp 4 [kv 4 "cmd" (sc 4 "make")]]))])])].
Theorem C65_alias_refuted : exists n j, shows jsc (fun z => in_int64 z = true) True n j /\ valid s_babfile j = true /\
  (forall l c, run_entry n (YMap l c) -> ~ has c "prompt") /\ ~ exists s, unmarshal_node Y0 n = Ok s.
Proof.
  exists aliased, (to_json aliased). split.
  - apply sh_map; [apply (bool_decide_eq_true_1 (NoDup _)); vm_compute; reflexivity|]. repeat constructor; try (apply to_json_shows; vm_compute; reflexivity);
      try (apply (bool_decide_eq_true_1 (NoDup _)); vm_compute; reflexivity); try apply jsc_small; try (apply (bool_decide_eq_true_1 (_ ∉ _)); vm_compute; reflexivity).
  - split; [vm_compute; reflexivity|]. split; [|intros [s H]; vm_compute in H; discriminate H].
    intros l c (? & ? & ? & ? & k & l2 & tc & l3 & its & [= <- <-] & Ht & Hin & Hr & Hm) (kv & Hkv & Hk). vm_compute in Ht. injection Ht as <- <-.
    apply elem_of_cons in Hin as [[= -> -> ->]|Hin].
    + vm_compute in Hr. injection Hr as <- <-. apply elem_of_list_singleton in Hm. injection Hm as -> ->. apply elem_of_list_singleton in Hkv. subst kv. vm_compute in Hk. discriminate Hk.
    + apply elem_of_list_singleton in Hin. injection Hin as -> -> ->. vm_compute in Hr. discriminate Hr.
Qed.

(** The other way round the schema is the narrower: it refuses an include of a file
    called just Babfile, a number as the default of a prompt for a number, a key bab
    does not know, a list of no tasks, a dependency named twice, which bab all takes. *)
Definition narrower : list node :=
  [mp 1 [kv 1 "includes" (mp 2 [kv 2 "lib" (mp 3 [kv 3 "babfile" (sc 3 "lib/Babfile")])])];
   mp 1 [kv 1 "tasks" (mp 2 [kv 2 "a" (mp 3 [kv 3 "run" (seq 4 [mp 4 [kv 4 "prompt" (sc 4 "n"); kv 5 "type" (sc 5 "number"); kv 6 "message" (sc 6 "How many?"); kv 7 "default" (sc 7 "5")]])])])];
   mp 1 [kv 1 "version" (sc 1 "2")]; mp 1 [kv 1 "tasks" (mp 1 [])];
   mp 1 [kv 1 "tasks" (mp 2 [kv 2 "a" (mp 3 [kv 3 "deps" (seq 3 [sc 3 "b"; sc 3 "b"])]); kv 4 "b" (mp 5 [kv 5 "run" (seq 6 [mp 6 [kv 6 "cmd" (sc 6 "ls")]])])])]].
Theorem C65_converse_refuted : Forall (fun n => (exists s, unmarshal_node Y0 n = Ok s) /\ (exists j, shows jsc (fun z => in_int64 z = true) False n j) /\
  forall ok al j, shows jsc ok al n j -> valid s_babfile j = false) narrower.
Proof.
  assert (H : forall n, no_alias n = true -> valid s_babfile (to_json n) = false -> (exists s, unmarshal_node Y0 n = Ok s) ->
    (exists s, unmarshal_node Y0 n = Ok s) /\ (exists j, shows jsc (fun z => in_int64 z = true) False n j) /\ forall ok al j, shows jsc ok al n j -> valid s_babfile j = false).
  { intros n Ha Hv Hs. split; [exact Hs|]. split; [exists (to_json n); apply to_json_shows; exact Ha|]. intros ok al j Hj. apply shows_to_json in Hj as ->. exact Hv. }
  apply Forall_cons. split; [apply H; [vm_compute; reflexivity|vm_compute; reflexivity|vm_compute; eexists; reflexivity]|].
  apply Forall_cons. split; [apply H; [vm_compute; reflexivity|vm_compute; reflexivity|vm_compute; eexists; reflexivity]|].
  apply Forall_cons. split; [apply H; [vm_compute; reflexivity|vm_compute; reflexivity|vm_compute; eexists; reflexivity]|].
  apply Forall_cons. split; [apply H; [vm_compute; reflexivity|vm_compute; reflexivity|vm_compute; eexists; reflexivity]|].
  apply Forall_cons. split; [apply H; [vm_compute; reflexivity|vm_compute; reflexivity|vm_compute; eexists; reflexivity]|].
  apply Forall_nil. exact I.
Qed.

Print Assumptions C65_schema_valid_decoded.
Print Assumptions C65_schema_valid_no_prompt.
Print Assumptions C65_alias_refuted.
Print Assumptions C65_converse_refuted.
Print Assumptions C65_prompt_refuted.
