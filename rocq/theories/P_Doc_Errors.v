(** Theorems about the errors of a document: C57, C58. *)
From Verif Require Import Base Types_Model Include_Model Doc_Model Doc_Spec Doc_Proof Doc_Item Doc_Tree Doc_File Doc_Errors.

(** The entries of a tasks section, without those that repeat the name of an earlier one. *)
Definition names (es : list (node * node)) : list str := map (fun kv => value_of kv.1) es.
Definition task_of (c : list (node * node)) (k v : node) : Prop :=
  exists n l pre post, (n, YMap l (pre ++ (k, v) :: post)) ∈ c /\ value_of n = lit "tasks" /\ value_of k ∉ names pre.

Section Spots.
  Context (Y : yaml).

  (** The entries of a run list; and of a parallel block all of whose own entries are in order. *)
  Inductive item_of (c : list (node * node)) : node -> Prop :=
  | item_run k l tc rk l' its n : task_of c k (YMap l tc) -> (rk, YSeq l' its) ∈ tc -> value_of rk = lit "run" -> n ∈ its -> item_of c n
  | item_child l ic l' its n : item_of c (YMap l ic) -> Forall (fun kv => block_entry_ok Y (value_of kv.1) kv.2) ic ->
      field ic "parallel" = Some (YSeq l' its) -> n ∈ its -> item_of c n.

  (** The places of a document where something is wrong. *)
  Inductive offence (c : list (node * node)) : list node -> Prop :=
  | off_section k v : (k, v) ∈ c -> ~ section_ok Y (value_of k) v -> offence c [k; v]
  | off_repeated n l pre k v post k' : (n, YMap l (pre ++ (k, v) :: post)) ∈ c -> value_of n = lit "tasks" ->
      (exists v', (k', v') ∈ pre) -> value_of k' = value_of k -> offence c [k]
  | off_task k v : task_of c k v -> (forall t, ~ task_means Y k v t) -> offence c [v]
  | off_task_entry k l tc k' v' : task_of c k (YMap l tc) -> (k', v') ∈ tc -> ~ task_entry_ok Y (value_of k') v' -> offence c [k'; v']
  | off_item n : item_of c n -> (forall it, ~ becomes Y n it) -> offence c [n]
  | off_item_entry l ic k v : item_of c (YMap l ic) -> ~ has ic "parallel" -> (k, v) ∈ ic -> ~ entry_ok Y (value_of k) v -> offence c [k; v]
  | off_block_entry l ic k v : item_of c (YMap l ic) -> has ic "parallel" -> (k, v) ∈ ic -> ~ block_entry_ok Y (value_of k) v -> offence c [k; v].

  (** Nothing is left out of the list of errors. *)
  Lemma loop_part {A} (step : A -> node -> node -> list derr * A) c s k v : (k, v) ∈ c -> exists s', (step s' k v).1 ⊆ (loop step c s).1.
  Proof.
    revert s. induction c as [|[a b] r IH]; intros s Hin; [inversion Hin|]. rewrite loop_cons. cbn [fst]. apply elem_of_cons in Hin as [E|Hin].
    - injection E as -> ->. exists s. intros e He. apply elem_of_app. auto.
    - destruct (IH (step s a b).2 Hin) as [s' Hs]. exists s'. intros e He. apply elem_of_app. auto.
  Qed.
  Lemma tasks_part k v post : forall pre lines tasks, lines !! value_of k = None -> value_of k ∉ names pre ->
    (parse_task Y (value_of k) v).1 ⊆ (tasks_loop Y (pre ++ (k, v) :: post) lines tasks).1.
  Proof.
    induction pre as [|[a b] pre IH]; intros lines tasks Hl Hn e He; cbn [app tasks_loop].
    - rewrite Hl. destruct (parse_task Y (value_of k) v) as [es ot]. cbn [fst] in He. destruct (tasks_loop Y post _ _) as [es' ts]. cbn [fst]. apply elem_of_app. auto.
    - apply not_elem_of_cons in Hn as [Hne Hn]. cbn [fst] in Hne. destruct (lines !! value_of a) as [o|].
      + specialize (IH lines tasks Hl Hn e He). destruct (tasks_loop Y _ lines tasks) as [es ts]. cbn [fst] in *. apply elem_of_list_further. exact IH.
      + destruct (parse_task Y (value_of a) b) as [es1 ot].
        match goal with |- context [tasks_loop Y ?r ?x ?y] => assert (Hx : x !! value_of k = None) by (rewrite lookup_insert_ne by congruence; exact Hl); specialize (IH x y Hx Hn e He); destruct (tasks_loop Y r x y) as [es ts] end.
        cbn [fst] in *. apply elem_of_app. auto.
  Qed.
  (** The second of two equal names, with the line of the first. *)
  Lemma tasks_repeated k v post : forall pre lines tasks,
    is_Some (lines !! value_of k) \/ value_of k ∈ names pre ->
    exists orig, (line_of k, DDuplicate (value_of k) orig) ∈ (tasks_loop Y (pre ++ (k, v) :: post) lines tasks).1 /\
      match lines !! value_of k with
      | Some o => orig = o
      | None => exists i k1 v1, pre !! i = Some (k1, v1) /\ value_of k1 = value_of k /\ orig = line_of k1 /\ value_of k ∉ names (take i pre)
      end.
  Proof.
    induction pre as [|[a b] pre IH]; intros lines tasks Hor; cbn [app tasks_loop].
    - destruct Hor as [[o Ho]|Hin]; [|inversion Hin]. rewrite Ho. exists o. split; [|reflexivity].
      destruct (tasks_loop Y post lines tasks). apply elem_of_list_here.
    - destruct (lines !! value_of a) as [o|] eqn:Ea.
      + assert (Hor' : is_Some (lines !! value_of k) \/ value_of k ∈ names pre).
        { destruct Hor as [?|Hin]; [auto|]. apply elem_of_cons in Hin as [E|Hin]; [left; cbn [fst] in E; rewrite E, Ea; eauto|auto]. }
        destruct (IH lines tasks Hor') as (orig & H1 & H2). exists orig. destruct (tasks_loop Y _ lines tasks) as [es ts]. cbn [fst] in *.
        split; [apply elem_of_list_further; exact H1|]. destruct (lines !! value_of k) as [o'|] eqn:Ek; [exact H2|].
        destruct H2 as (i & k1 & v1 & Hi & Hv & Ho & Hn). exists (S i), k1, v1. split; [exact Hi|]. split; [exact Hv|]. split; [exact Ho|]. cbn [take].
        apply not_elem_of_cons. split; [cbn [fst]; congruence|exact Hn].
      + destruct (parse_task Y (value_of a) b) as [es1 ot].
        assert (Hor' : is_Some (<[value_of a := line_of a]> lines !! value_of k) \/ value_of k ∈ names pre).
        { destruct Hor as [[o Ho]|Hin]; [left; rewrite lookup_insert_ne by congruence; eauto|]. apply elem_of_cons in Hin as [E|Hin]; [left; cbn [fst] in E; rewrite E, lookup_insert; eauto|auto]. }
        match goal with |- context [tasks_loop Y ?r ?x ?y] => destruct (IH x y Hor') as (orig & H1 & H2); destruct (tasks_loop Y r x y) as [es ts] end.
        cbn [fst] in *. exists orig. split; [apply elem_of_app; auto|].
        destruct (decide (value_of a = value_of k)) as [E|E].
        * rewrite E in H2. rewrite lookup_insert in H2. rewrite <- E, Ea. exists 0, a, b. subst orig. split; [reflexivity|]. split; [congruence|]. split; [reflexivity|]. cbn. intros Hx; inversion Hx.
        * rewrite lookup_insert_ne in H2 by exact E. destruct (lines !! value_of k); [exact H2|].
          destruct H2 as (i & k1 & v1 & Hi & Hv & Ho & Hn). exists (S i), k1, v1. split; [exact Hi|]. split; [exact Hv|]. split; [exact Ho|]. cbn [take].
          apply not_elem_of_cons. split; [cbn [fst]; congruence|exact Hn].
  Qed.
  Lemma items_part item its n : n ∈ its -> forall i, exists j, (item j n).1 ⊆ (items_loop item i its).1.1.
  Proof.
    induction its as [|m its IH]; intros Hin i; [inversion Hin|]. cbn [items_loop]. apply elem_of_cons in Hin as [->|Hin].
    - exists i. destruct (item i m) as [es it]. destruct (items_loop item (S i) its) as [[es' bad] its']. intros e He. apply elem_of_app. auto.
    - destruct (IH Hin (S i)) as [j Hj]. exists j. destruct (item i m) as [es it]. destruct (items_loop item (S i) its) as [[es' bad] its'].
      intros e He. apply elem_of_app. right. apply Hj. exact He.
  Qed.

  Context (l : nat) (c : list (node * node)) (es : list derr).
  Context (Hes : unmarshal_node Y (YMap l c) = Err (EInvalid es)).

  Lemma section_part k v : (k, v) ∈ c -> exists s, (root_step Y s k v).1 ⊆ es.
  Proof.
    intros Hin. unfold unmarshal_node in Hes. rewrite root_fields_loop in Hes. destruct (loop_part (root_step Y) c no_schema k v Hin) as [s Hs]. exists s.
    destruct (loop (root_step Y) c no_schema) as [[|e es'] s']; [discriminate|]. injection Hes as <-. exact Hs.
  Qed.
  Lemma tasks_section n l' es' : (n, YMap l' es') ∈ c -> value_of n = lit "tasks" -> exists tasks, (tasks_loop Y es' ∅ tasks).1 ⊆ es.
  Proof.
    intros Hin Hn. destruct (section_part _ _ Hin) as [s Hs]. exists (f_tasks s). revert Hs. unfold root_step, root_key. rewrite Hn, !is_lit. cbn [String.eqb Ascii.eqb Bool.eqb].
    unfold parse_tasks. destruct (tasks_loop Y es' ∅ (f_tasks s)). auto.
  Qed.
  Lemma task_part k v : task_of c k v -> (parse_task Y (value_of k) v).1 ⊆ es.
  Proof.
    intros (n & l' & pre & post & Hin & Hn & Hk). destruct (tasks_section _ _ _ Hin Hn) as [tasks Ht]. intros e He. apply Ht. apply tasks_part; [apply lookup_empty|exact Hk|exact He].
  Qed.
  Lemma task_entry_part k l' tc k' v' : task_of c k (YMap l' tc) -> (k', v') ∈ tc -> exists bad t, (task_key Y (value_of k) k' v' bad t).1.1 ⊆ es.
  Proof.
    intros Ht Hin. pose proof (task_part _ _ Ht) as Hp. unfold parse_task in Hp. rewrite task_fields_loop in Hp.
    destruct (loop_part (task_step Y (value_of k)) tc (false, no_task) k' v' Hin) as [s Hs]. rewrite task_step_eq in Hs. cbn [fst] in Hs. exists s.1, s.2.
    destruct (loop (task_step Y (value_of k)) tc (false, no_task)) as [es' s']. cbn [fst] in *. intros e He. apply Hp. apply Hs. exact He.
  Qed.
  Lemma item_part n : item_of c n -> exists fuel name i, depth n <= fuel /\ (run_item_upto Y fuel name i n).1 ⊆ es.
  Proof.
    induction 1 as [k l' tc rk l'' its n Ht Hin Hrk Hn|l' ic l'' its n _ (fuel & name & i & Hf & Hp) Hb Hpar Hn].
    - destruct (task_entry_part _ _ _ _ _ Ht Hin) as (bad & t & Hp). revert Hp. unfold task_key. rewrite Hrk, !is_lit. cbn [String.eqb Ascii.eqb Bool.eqb].
      unfold parse_run_items, run_items_with. destruct (items_part (parse_run_item Y (value_of k)) its n Hn 0) as [j Hj].
      destruct (items_loop _ _ _) as [[es' bad'] its']. cbn [fst] in *. intros Hp. exists (depth n), (value_of k), j. split; [lia|]. intros e He. apply Hp, Hj. exact He.
    - destruct fuel as [|fuel]; [destruct ic; simpl in Hf; lia|]. cbn [run_item_upto] in Hp.
      assert (Hex : existsb (fun kv => is (value_of kv.1) "parallel") ic = true).
      { unfold field, field_at, under in Hpar. rewrite fmap_last in Hpar. destruct (last _) as [[a b]|] eqn:El; [|discriminate]. apply last_Some_elem_of in El.
        apply elem_of_list_filter in El as [El1 El2]. apply existsb_exists. exists (a, b). split; [apply elem_of_list_In; exact El2|]. rewrite El1. reflexivity. }
      rewrite Hex in Hp. unfold parallel_item in Hp. destruct (parallel_fields_spec Y (DItem name i) ic) as (F1 & F2 & F3). apply F1 in Hb.
      specialize (F3 Hb). rewrite <- F2 in Hb. destruct (parallel_fields Y (DItem name i) ic false no_qf) as [[es' bad] qf]. cbn [fst snd] in *. subst bad qf.
      cbn [qf_items block_reads] in Hp. rewrite Hpar in Hp. cbn in Hp. destruct its as [|m its]; [inversion Hn|].
      destruct (items_part (run_item_upto Y fuel name) (m :: its) n Hn 0) as [j Hj]. exists fuel, name, j. split.
      + apply le_S_n. etransitivity; [|exact Hf]. apply le_n_S. unfold field, field_at, under in Hpar. rewrite fmap_last in Hpar. destruct (last _) as [[a b]|] eqn:El; [|discriminate]. apply last_Some_elem_of in El.
        apply elem_of_list_filter in El as [_ El]. injection Hpar as ->. cbn [snd] in *. clear -Hn El.
        assert (M : forall (f : node -> nat) l x, x ∈ l -> f x <= foldr (fun x m => Nat.max (f x) m) 0 l).
        { intros f q. induction q as [|y q IH]; intros x Hx; [inversion Hx|]. apply elem_of_cons in Hx as [->|Hx]; cbn [foldr]; [lia|]. specialize (IH _ Hx). lia. }
        assert (M2 : forall l (x : node * node), x ∈ l -> depth x.2 <= foldr (fun kv m => Nat.max (depth (snd kv)) m) 0 l).
        { intros q. induction q as [|y q IH]; intros x Hx; [inversion Hx|]. apply elem_of_cons in Hx as [->|Hx]; cbn [foldr]; [lia|]. specialize (IH _ Hx). lia. }
        specialize (M2 _ _ El). cbn [snd] in M2. etransitivity; [|exact M2]. cbn [depth]. specialize (M depth _ _ Hn). lia.
      + intros e He. apply Hp. destruct (items_loop (run_item_upto Y fuel name) 0 (m :: its)) as [[es1 bad1] its1]. cbn [fst] in Hj.
        destruct (negb bad1); [destruct (validate_parallel_items _ _ _) as [es2 ok2]; destruct ok2|]; cbn [fst]; rewrite ?elem_of_app; specialize (Hj e He); tauto.
  Qed.

  Lemma some_located (es' : list derr) spot : es' <> [] -> es' ⊆ es -> located es' spot -> exists e, e ∈ es /\ line_at e.1 spot.
  Proof.
    intros Hne Hs Hl. destruct es' as [|e r]; [contradiction|]. exists e. split; [apply Hs, elem_of_list_here|]. inversion Hl; subst. assumption.
  Qed.

  Lemma offence_reported spot : offence c spot -> exists e, e ∈ es /\ line_at e.1 spot.
  Proof.
    destruct 1 as [k v Hin Hno|n l' pre k v post k' Hin Hn [v' Hk] Hv|k v Ht Hno|k l' tc k' v' Ht Hin Hno|n Hi Hno|l' ic k v Hi Hp Hin Hno|l' ic k v Hi Hp Hin Hno].
    - destruct (section_part _ _ Hin) as [s Hs]. eapply some_located; [|exact Hs|apply root_located]. rewrite root_step_ok. exact Hno.
    - destruct (tasks_section _ _ _ Hin Hn) as [tasks Ht].
      destruct (tasks_repeated k v post pre ∅ tasks) as (orig & H1 & _).
      { right. rewrite <- Hv. apply elem_of_list_fmap. exists (k', v'). auto. }
      eexists. split; [apply Ht; exact H1|]. apply line_at_one. constructor. reflexivity.
    - eapply some_located; [|exact (task_part _ _ Ht)|apply task_located]. destruct (parse_task_spec Y k v) as [P1 P2]. rewrite P2.
      intros [t Hk]. apply (Hno t). apply P1. exact Hk.
    - destruct (task_entry_part _ _ _ _ _ Ht Hin) as (bad & t & Hs). eapply some_located; [|exact Hs|apply task_key_located].
      destruct (task_key_ok Y (value_of k) k' v' bad t) as [P _]. rewrite P. exact Hno.
    - destruct (item_part _ Hi) as (fuel & name & i & Hf & Hs). eapply some_located; [|exact Hs|apply run_item_located].
      destruct (run_item_upto_spec Y fuel name i n Hf) as [P1 P2]. rewrite P2. intros [it Hit]. apply (Hno it). apply P1. exact Hit.
    - destruct (item_part _ Hi) as (fuel & name & i & Hf & Hs). destruct fuel as [|fuel]; [simpl in Hf; lia|]. cbn [run_item_upto] in Hs.
      assert (Hex : existsb (fun kv => is (value_of kv.1) "parallel") ic = false).
      { apply not_true_iff_false. intros E. apply Hp. apply existsb_exists in E as ([a b] & E1 & E2). exists (a, b). split; [apply elem_of_list_In; exact E1|apply is_true; exact E2]. }
      rewrite Hex in Hs.
      destruct (loop_part (run_key Y (DItem name i)) ic no_rf k v Hin) as [rf Hr]. rewrite <- run_fields_loop in Hr.
      eapply (some_located (run_key Y (DItem name i) rf k v).1); [rewrite run_key_ok; exact Hno| |apply run_key_located].
      intros e He. apply Hs. specialize (Hr e He). unfold plain_item. destruct (run_fields Y (DItem name i) ic no_rf) as [es1 rf1]. cbn [fst] in Hr.
      destruct (1 <? _); [apply elem_of_app; auto|]. destruct (_ =? 0); [apply elem_of_app; auto|]. destruct (rf_bad rf1); [exact Hr|]. destruct (given _); [exact Hr|]. destruct (given _); [exact Hr|].
      destruct (given _); [destruct (build_log_run _ _ _ _ _ _); apply elem_of_app; auto|]. destruct (given _); [|exact Hr]. destruct (validate_prompt_run _ _ _ _ _ _). apply elem_of_app. auto.
    - destruct (item_part _ Hi) as (fuel & name & i & Hf & Hs). destruct fuel as [|fuel]; [simpl in Hf; lia|]. cbn [run_item_upto] in Hs.
      assert (Hex : existsb (fun kv => is (value_of kv.1) "parallel") ic = true).
      { destruct Hp as ([a b] & Hp & Hv). apply existsb_exists. exists (a, b). split; [apply elem_of_list_In; exact Hp|]. rewrite Hv. reflexivity. }
      rewrite Hex in Hs. destruct (loop_part (block_step Y (DItem name i)) ic (false, no_qf) k v Hin) as [s Hr]. rewrite block_step_eq in Hr. cbn [fst] in Hr.
      destruct (parallel_key_ok Y (DItem name i) k v s.2) as [P _].
      eapply (some_located (parallel_key Y (DItem name i) k v s.2).1.1); [rewrite P; exact Hno| |apply parallel_key_located].
      intros e He. apply Hs. specialize (Hr e He). unfold parallel_item. rewrite parallel_fields_loop. destruct (loop (block_step Y (DItem name i)) ic (false, no_qf)) as [es1 [bad qf]]. cbn [fst snd] in *.
      destruct bad; [exact Hr|]. destruct (qf_items qf) as [[l1 [|m nodes]]|]; [apply elem_of_app; auto| |exact Hr].
      destruct (run_items_with _ _ _) as [[es2 ok] items]. destruct ok; [|apply elem_of_app; auto]. destruct (validate_parallel_items _ _ _) as [es3 ok3]. destruct ok3; apply elem_of_app; auto.
  Qed.
End Spots.

(** C58. A document is rejected exactly when something in it is wrong; there is
    an error for each place (section, repeated name, task, setting of a task, run item,
    setting of a run item) where something is, and every error points into the document.
    Missing from the full claim: bodies of repeated tasks, and children of
    parallel blocks that have a bad entry of their own (see below). *)
Theorem C58_fails_iff Y l c : (exists e, unmarshal_node Y (YMap l c) = Err e) <-> exists spot, offence Y c spot.
Proof.
  split.
  - intros [e H]. unfold unmarshal_node in H. rewrite root_fields_loop in H.
    assert (Hne : (loop (root_step Y) c no_schema).1 <> []) by (destruct (loop (root_step Y) c no_schema) as [[|] ?]; [discriminate|discriminate]). clear H.
    revert Hne. generalize no_schema as s. assert (G : forall c' s, c' ⊆ c -> (loop (root_step Y) c' s).1 <> [] -> exists spot, offence Y c spot); [|intros s; apply G; reflexivity].
    induction c' as [|[k v] r IH]; intros s Hsub Hne; [contradiction|]. rewrite loop_cons in Hne. cbn [fst] in Hne.
    destruct (root_step Y s k v).1 as [|x xs] eqn:E.
    + eapply IH; [|exact Hne]. intros z Hz. apply Hsub. apply elem_of_list_further. exact Hz.
    + exists [k; v]. apply off_section; [apply Hsub, elem_of_list_here|]. rewrite <- (root_step_ok Y s k v), E. discriminate.
  - intros [spot Ho]. destruct (unmarshal_node Y (YMap l c)) as [s|e] eqn:E; [|eauto]. exfalso.
    assert (Hn : Forall (fun kv => section_ok Y (value_of kv.1) kv.2) c) by (apply unmarshal_node_spec in E as (? & ? & [= <- <-] & H & _); exact H).
    rewrite Forall_forall in Hn.
    assert (Tk : forall k v, task_of c k v -> exists t, task_means Y k v t).
    { intros k v (n & l' & pre & post & Hin & Hv & _). destruct (so_tasks _ _ _ (Hn _ Hin) Hv) as (? & ? & [= <- <-] & _ & Ht). rewrite Forall_forall in Ht.
      apply (Ht (k, v)). apply elem_of_app. right. apply elem_of_list_here. }
    assert (It : forall n, item_of Y c n -> exists it, becomes Y n it).
    { induction 1 as [k l' tc rk l'' its n Ht Hin Hrk Hm|l' ic l'' its n _ [it Hit] Hb Hpar Hm].
      - destruct (Tk _ _ Ht) as (t & ? & ? & [= <- <-] & Hall & _). rewrite Forall_forall in Hall. destruct (to_run _ _ _ (Hall _ Hin) Hrk) as (? & ? & [= <- <-] & H). rewrite Forall_forall in H. auto.
      - inversion Hit as [? ? K|? ? K|? ? K|? ? ? K|? ? l1 its1 items _ Hp1 _ H2 _]; subst.
        1-4: (destruct K as [K _]; destruct K; unfold field, field_at, under in Hpar; rewrite fmap_last in Hpar; destruct (last _) as [[a b]|] eqn:El; [|discriminate];
              apply last_Some_elem_of in El; apply elem_of_list_filter in El as [El1 El2]; exists (a, b); auto).
        rewrite Hpar in Hp1. injection Hp1 as <- <-. clear -H2 Hm. induction H2 as [|x y xs ys Hxy _ IH]; [inversion Hm|]. apply elem_of_cons in Hm as [->|Hm]; eauto. }
    destruct Ho as [k v Hin Hno|n l' pre k v post k' Hin Hv [v' Hk] He|k v Ht Hno|k l' tc k' v' Ht Hin Hno|n Hi Hno|l' ic k v Hi Hp Hin Hno|l' ic k v Hi Hp Hin Hno].
    + exact (Hno (Hn _ Hin)).
    + destruct (so_tasks _ _ _ (Hn _ Hin) Hv) as (? & ? & [= <- <-] & Hd & _). rewrite map_app in Hd. apply NoDup_app in Hd as (_ & Hd & _). apply (Hd (value_of k)).
      * rewrite <- He. apply elem_of_list_fmap. exists (k', v'). auto.
      * apply elem_of_list_here.
    + destruct (Tk _ _ Ht) as [t H]. exact (Hno _ H).
    + destruct (Tk _ _ Ht) as (t & ? & ? & [= <- <-] & Hall & _). rewrite Forall_forall in Hall. exact (Hno (Hall _ Hin)).
    + destruct (It _ Hi) as [it H]. exact (Hno _ H).
    + destruct (It _ Hi) as [it H]. inversion H as [? ? K|? ? K|? ? K|? ? ? K|? ? l1 its1 items _ Hp1 _ H2 _]; subst.
      1-4: (destruct K as (_ & K & _); rewrite Forall_forall in K; exact (Hno (K _ Hin))).
      destruct Hp. unfold field, field_at, under in Hp1; rewrite fmap_last in Hp1; destruct (last _) as [[a b]|] eqn:El; [|discriminate].
      apply last_Some_elem_of in El; apply elem_of_list_filter in El as [El1 El2]; exists (a, b); auto.
    + destruct (It _ Hi) as [it H]. inversion H as [? ? K|? ? K|? ? K|? ? ? K|? ? l1 its1 items Hb _ _ _ _]; subst.
      1-4: (destruct K as (K & _); exact (K Hp)).
      rewrite Forall_forall in Hb. exact (Hno (Hb _ Hin)).
Qed.

Theorem C58_all_reported_partial Y l c es spot : unmarshal_node Y (YMap l c) = Err (EInvalid es) -> offence Y c spot ->
  exists e, e ∈ es /\ line_at e.1 spot.
Proof. intros H. apply (offence_reported Y l c es H). Qed.

Theorem C58_errors_point_into_document Y n es e : unmarshal_node Y n = Err (EInvalid es) -> es <> [] /\ (e ∈ es -> line_in e.1 n).
Proof.
  intros H. split; [eapply unmarshal_node_errors; exact H|]. intros He. apply errors_located in H. rewrite Forall_forall in H. apply line_at_one. auto.
Qed.

(** C57. Two equal keys in one tasks mapping: parsing fails, and there is an error
    at the line of the second that names the line of the first. *)
Theorem C57_duplicates_rejected Y l c n l' es i j k1 v1 k2 v2 : (n, YMap l' es) ∈ c -> value_of n = lit "tasks" ->
  es !! i = Some (k1, v1) -> es !! j = Some (k2, v2) -> i < j -> value_of k1 = value_of k2 ->
  (forall m k v, m < i -> es !! m = Some (k, v) -> value_of k <> value_of k1) ->
  exists errs, unmarshal_node Y (YMap l c) = Err (EInvalid errs) /\ (line_of k2, DDuplicate (value_of k1) (line_of k1)) ∈ errs.
Proof.
  intros Hin Hn Hi Hj Hlt He Hfirst. pose proof (take_drop_middle _ _ _ Hj) as Hes.
  assert (Hi' : take j es !! i = Some (k1, v1)) by (rewrite lookup_take by exact Hlt; exact Hi).
  assert (Hoff : exists spot, offence Y c spot).
  { exists [k2]. rewrite <- Hes in Hin. eapply off_repeated; [exact Hin|exact Hn|exists v1; eapply elem_of_list_lookup_2; exact Hi'|exact He]. }
  apply (C58_fails_iff Y l) in Hoff as [e E]. destruct e as [| |errs]; [unfold unmarshal_node in E; destruct (root_fields _ _ _) as [[|] ?]; discriminate..|].
  exists errs. split; [exact E|]. destruct (tasks_section Y l c errs E _ _ _ Hin Hn) as [tasks Ht]. apply Ht. rewrite <- Hes.
  destruct (tasks_repeated Y k2 v2 (drop (S j) es) (take j es) ∅ tasks) as (orig & H1 & H2).
  { right. rewrite <- He. apply elem_of_list_fmap. exists (k1, v1). split; [reflexivity|]. eapply elem_of_list_lookup_2; exact Hi'. }
  rewrite lookup_empty in H2. destruct H2 as (i' & k' & v' & Hi2 & Hv & -> & Hnot). rewrite He.
  assert (i' = i) as ->.
  { destruct (lt_eq_lt_dec i' i) as [[Hl|Hl]|Hl]; [|exact Hl|].
    - exfalso. eapply (Hfirst i' k' v' Hl); [|congruence]. rewrite lookup_take in Hi2 by lia. exact Hi2.
    - exfalso. apply Hnot. rewrite <- He. apply elem_of_list_fmap. exists (k1, v1). split; [reflexivity|]. apply (elem_of_list_lookup_2 _ i).
      rewrite lookup_take by exact Hl. exact Hi'. }
  rewrite Hi' in Hi2. injection Hi2 as <- <-. exact H1.
Qed.

(** ** Cases. *)
From Verif Require Import Doc_Example.

(** Four independent problems, four errors. *)
Definition four : list (node * node) :=
  [ kv 1 "silent" (sc 1 "maybe")
  ; kv 2 "tasks" (mp 3
      [ kv 3 "a" (mp 4 [kv 4 "run" (seq 5 [mp 5 [kv 5 "cmd" (sc 5 "make"); kv 6 "task" (sc 6 "b")]])])
      ; kv 7 "b" (sc 7 "x")
      ; kv 8 "a" (mp 9 [kv 9 "desc" (sc 9 "again")])])].
Example four_errors : unmarshal_node Y0 (mp 1 four) =
  Err (EInvalid [(1, DBool); (5, DItem (lit "a") 0 ITwoKinds); (7, DTaskMap (lit "b")); (8, DDuplicate (lit "a") 3)]).
Proof. vm_compute. reflexivity. Qed.
Example four_offence : offence Y0 four [mp 5 [kv 5 "cmd" (sc 5 "make"); kv 6 "task" (sc 6 "b")]].
Proof.
  apply off_item.
  - eapply (item_run _ _ (sc 3 "a") 4 [kv 4 "run" (seq 5 [mp 5 [kv 5 "cmd" (sc 5 "make"); kv 6 "task" (sc 6 "b")]])] (sc 4 "run") 5).
    + exists (sc 2 "tasks"), 3, [], [kv 7 "b" (sc 7 "x"); kv 8 "a" (mp 9 [kv 9 "desc" (sc 9 "again")])].
      split; [apply elem_of_list_further, elem_of_list_here|]. split; [reflexivity|]. intros H. inversion H.
    + apply elem_of_list_here.
    + reflexivity.
    + apply elem_of_list_here.
  - intros it Hb. apply (proj1 (parse_run_item_spec Y0 [] 0 _)) in Hb. vm_compute in Hb. discriminate.
Qed.
(** C57's hypotheses on the same document. *)
Example four_duplicate : exists errs, unmarshal_node Y0 (mp 1 four) = Err (EInvalid errs) /\ (8, DDuplicate (lit "a") 3) ∈ errs.
Proof.
  eapply (C57_duplicates_rejected Y0 1 four (sc 2 "tasks") 3 _ 0 2 (sc 3 "a") _ (sc 8 "a")).
  - apply elem_of_list_further, elem_of_list_here.
  - reflexivity.
  - reflexivity.
  - reflexivity.
  - lia.
  - reflexivity.
  - intros m k v Hm. lia.
Qed.

(** The full claim of C58 is false: the child of a parallel block is not looked at
    when the block has a bad entry. *)
Definition hidden : list (node * node) :=
  [kv 1 "tasks" (mp 2 [kv 2 "a" (mp 3 [kv 3 "run" (seq 4 [mp 4 [kv 4 "parallel" (seq 5 [mp 5 [kv 5 "log" (sc 5 "hi"); kv 6 "level" (sc 6 "loud")]]); kv 7 "retries" (sc 7 "3")]])])])].
Theorem C58_children_of_bad_block_unreported_refuted : exists Y l c es k tl tc rk rl its pl pc pk l' n,
  unmarshal_node Y (YMap l c) = Err (EInvalid es) /\
  task_of c k (YMap tl tc) /\ (rk, YSeq rl its) ∈ tc /\ value_of rk = lit "run" /\ YMap pl pc ∈ its /\
  (pk, YSeq l' [n]) ∈ pc /\ value_of pk = lit "parallel" /\ (forall it, ~ becomes Y n it) /\
  forall e, e ∈ es -> ~ line_in e.1 n.
Proof.
  exists Y0, 1, hidden. eexists. exists (sc 2 "a"), 3. eexists. exists (sc 3 "run"), 4. eexists. exists 4. eexists. exists (sc 4 "parallel"), 5, (mp 5 [kv 5 "log" (sc 5 "hi"); kv 6 "level" (sc 6 "loud")]).
  split; [vm_compute; reflexivity|].
  split; [exists (sc 1 "tasks"), 2, [], []; split; [apply elem_of_list_here|]; split; [reflexivity|]; intros H; inversion H|].
  split; [apply elem_of_list_here|]. split; [reflexivity|]. split; [apply elem_of_list_here|]. split; [apply elem_of_list_here|]. split; [reflexivity|]. split.
  - intros it Hb. apply (proj1 (parse_run_item_spec Y0 [] 0 _)) in Hb. vm_compute in Hb. discriminate.
  - intros e He Hl. apply elem_of_list_singleton in He as ->. cbn [fst] in Hl.
    assert (Hs : forall l s, line_in 7 (sc l s) -> l = 7) by (intros l0 s0 H; inversion H; subst; cbn in *; congruence).
    inversion Hl as [? E|? ? ? ? ?|? ? k v Hin Hk|? ? k v Hin Hv]; subst; [discriminate| |].
    all: repeat (apply elem_of_cons in Hin as [E|Hin]; [injection E as -> ->; match goal with H : line_in _ _ |- _ => apply Hs in H; discriminate end|]); inversion Hin.
Qed.

Print Assumptions C57_duplicates_rejected.
Print Assumptions C58_fails_iff.
Print Assumptions C58_all_reported_partial.
Print Assumptions C58_errors_point_into_document.
Print Assumptions C58_children_of_bad_block_unreported_refuted.
