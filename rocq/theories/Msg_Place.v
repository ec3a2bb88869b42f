(** Which entry of which list an error about a run item names. *)
From Verif Require Import Base Types_Model Include_Model Doc_Model Doc_Spec Doc_Proof Doc_Item Doc_Tree Doc_File Doc_Errors.

(** [entry its i n]: [n] is entry [i] of the list, or entry [i] of the list of a parallel
    block in it (or in a block in that, ...). *)
Inductive entry : list node -> nat -> node -> Prop :=
| entry_here its i n : its !! i = Some n -> entry its i n
| entry_block its k l c pk pl its' i n : its !! k = Some (YMap l c) -> (pk, YSeq pl its') ∈ c -> value_of pk = lit "parallel" -> entry its' i n -> entry its i n.

(** All errors about run items name this task and index. *)
Notation named name i es := (Forall (fun e : derr => forall t j ie, e.2 = DItem t j ie -> t = name /\ j = i) es).
Notation unnamed es := (Forall (fun e : derr => forall t j ie, e.2 <> DItem t j ie) es).

Section Place.
  Context (Y : yaml).

  Ltac keyed := repeat (match goal with |- context [if is ?a ?b then _ else _] => destruct (is a b) end).

  Lemma unnamed_named name i es : unnamed es -> named name i es.
  Proof. intros H. eapply Forall_impl; [exact H|]. intros e He t j ie E. destruct (He _ _ _ E). Qed.
  Lemma one_named name i l e : named name i [(l, DItem name i e)].
  Proof. constructor; [|constructor]. intros t j ie [= -> -> _]. auto. Qed.
  Lemma one_unnamed l e : (forall t j ie, e <> DItem t j ie) -> unnamed [(l, e)].
  Proof. intros H. constructor; [exact H|constructor]. Qed.

  Lemma str_map_unnamed nm w n old : (forall t j ie, nm <> DItem t j ie) -> (forall k t j ie, w k <> DItem t j ie) -> unnamed (parse_str_map nm w n old).1.1.
  Proof.
    intros Hn Hw. unfold parse_str_map. destruct n as [l t v|l its|l c|l a t]; try (apply one_unnamed; exact Hn).
    assert (G : forall c m b, unnamed (str_entries w c m b).1.1).
    { clear c. induction c as [|[k v] r IH]; intros m b; cbn [str_entries]; [constructor|]. destruct v as [l' t v|l' its|l' c|l' a t]; [apply IH| | |].
      all: specialize (IH m true); destruct (str_entries w r m true) as [[es bad] m']; cbn [fst snd] in *; constructor; [apply Hw|exact IH]. }
    specialize (G c ∅ false). destruct (str_entries w c ∅ false) as [[es bad] m]. exact G.
  Qed.
  Lemma bool_unnamed n old : unnamed (parse_bool Y n old).1.1.
  Proof. unfold parse_bool. destruct n; try (apply one_unnamed; discriminate). destruct (y_bool _ _); [constructor|]. apply one_unnamed. discriminate. Qed.
  Lemma platforms_named name i l v : named name i (parse_platforms Y l (DItem name i) v).1.1.
  Proof. unfold parse_platforms. destruct (y_strs Y v) as [ps|]; [|apply one_named]. destruct (filter _ ps); [constructor|apply one_named]. Qed.
  Lemma prompt_key_named name i k v pf : named name i (parse_prompt_key Y k v (DItem name i) pf).1.1.
  Proof.
    unfold parse_prompt_key. keyed; try (constructor; fail); try (destruct (y_strs Y v); [constructor|apply one_named]); try (destruct (y_int Y v); [constructor|apply one_named]).
    pose proof (bool_unnamed v (pf_confirm pf)) as H. destruct (parse_bool _ _ _) as [[es ok] b]. apply unnamed_named. exact H.
  Qed.
  Lemma run_key_named name i rf k v : named name i (run_key Y (DItem name i) rf k v).1.
  Proof.
    unfold run_key. keyed; try (constructor; fail).
    - destruct v; try (constructor; fail); apply one_named.
    - pose proof (str_map_unnamed DEnvMap DEnvValue v (rf_env rf) ltac:(discriminate) ltac:(discriminate)) as H. unfold parse_env_map. destruct (parse_str_map _ _ _ _) as [[es ok] b]. apply unnamed_named. exact H.
    - pose proof (bool_unnamed v (rf_silent rf)) as H. destruct (parse_bool _ _ _) as [[es ok] b]. apply unnamed_named. exact H.
    - pose proof (bool_unnamed v (rf_output rf)) as H. destruct (parse_bool _ _ _) as [[es ok] b]. apply unnamed_named. exact H.
    - pose proof (platforms_named name i (line_of k) v) as H. destruct (parse_platforms _ _ _ _) as [[es ok] b]. exact H.
    - pose proof (prompt_key_named name i k v (rf_pf rf)) as H. destruct (parse_prompt_key _ _ _ _ _) as [[es ok] b]. exact H.
  Qed.
  Lemma run_fields_named name i c : forall rf, named name i (run_fields Y (DItem name i) c rf).1.
  Proof.
    induction c as [|[k v] r IH]; intros rf; cbn [run_fields]; [constructor|]. pose proof (run_key_named name i rf k v) as H. destruct (run_key _ _ _ _ _) as [es rf']. specialize (IH rf'). destruct (run_fields _ _ r rf') as [es' rf'']. apply Forall_app. auto.
  Qed.
  Lemma report_named name i line b e : named name i (report line (DItem name i) b e).1.
  Proof. destruct b; [apply one_named|constructor]. Qed.
  Lemma both_named name i a b : named name i a.1 -> named name i b.1 -> named name i (both a b).1.
  Proof. intros. apply Forall_app. auto. Qed.
  Lemma defaults_named name i line o d : named name i (defaults_in line (DItem name i) o d).1.
  Proof. induction d; [constructor|]. apply both_named; [apply report_named|assumption]. Qed.
  Lemma prompt_named name i line pf ps w : named name i (validate_prompt_run Y line (DItem name i) pf ps w).1.
  Proof.
    unfold validate_prompt_run. destruct (both _ _) as [es ok] eqn:E. cbn [fst]. change es with ((es, ok).1). rewrite <- E. clear E.
    unfold validate_basics, validate_options, validate_constraints, validate_type_specific. cbv zeta.
    repeat first [apply report_named|apply defaults_named|apply both_named|apply Forall_nil; exact I
      |match goal with |- context [if ?b then _ else _] => destruct b | |- context [match ?x with _ => _ end] => destruct x end].
  Qed.
  Lemma plain_named name i line c : named name i (plain_item Y line (DItem name i) c).1.
  Proof.
    unfold plain_item. pose proof (run_fields_named name i c no_rf) as H. destruct (run_fields _ _ c no_rf) as [es rf]. cbn [fst] in H.
    destruct (1 <? _); [apply Forall_app; split; [exact H|apply one_named]|]. destruct (_ =? 0); [apply Forall_app; split; [exact H|apply one_named]|]. destruct (rf_bad rf); [exact H|].
    destruct (given _); [exact H|]. destruct (given _); [exact H|]. destruct (given _).
    - unfold build_log_run. destruct (valid_level _); apply Forall_app; split; [exact H|constructor|exact H|apply one_named].
    - destruct (given _); [|exact H]. pose proof (prompt_named name i line (rf_pf rf) (rf_platforms rf) (rf_when rf)) as Hp.
      destruct (validate_prompt_run _ _ _ _ _ _) as [es' it]. apply Forall_app. auto.
  Qed.
  Lemma parallel_key_named name i k v qf : named name i (parallel_key Y (DItem name i) k v qf).1.1.
  Proof.
    unfold parallel_key. keyed; try (constructor; fail).
    - destruct v; try (constructor; fail); apply one_named.
    - destruct v as [l t m|l its|l c|l a t]; try apply one_named. destruct (valid_mode m); [constructor|apply one_named].
    - destruct (y_int Y v) as [z|]; [|apply one_named]. destruct (z <? 0)%Z; [apply one_named|constructor].
    - pose proof (bool_unnamed v (qf_color qf)) as H. destruct (parse_bool _ _ _) as [[es ok] b]. apply unnamed_named. exact H.
    - pose proof (bool_unnamed v (qf_silent qf)) as H. destruct (parse_bool _ _ _) as [[es ok] b]. apply unnamed_named. exact H.
    - pose proof (bool_unnamed v (qf_output qf)) as H. destruct (parse_bool _ _ _) as [[es ok] b]. apply unnamed_named. exact H.
    - pose proof (platforms_named name i (line_of k) v) as H. destruct (parse_platforms _ _ _ _) as [[es ok] b]. exact H.
    - apply one_named.
  Qed.
  Lemma parallel_fields_named name i c : forall bad qf, named name i (parallel_fields Y (DItem name i) c bad qf).1.1.
  Proof.
    induction c as [|[k v] r IH]; intros bad qf; cbn [parallel_fields]; [constructor|]. pose proof (parallel_key_named name i k v qf) as H. destruct (parallel_key _ _ _ _ _) as [[es ok] qf'].
    specialize (IH (if ok then bad else true) qf'). destruct (parallel_fields _ _ r _ _) as [[es' bad'] qf'']. apply Forall_app. auto.
  Qed.
  Lemma validate_items_named name i nodes : forall items, named name i (validate_parallel_items (DItem name i) nodes items).1.
  Proof.
    induction nodes as [|n nodes IH]; intros [|it items]; cbn [validate_parallel_items]; try (constructor; fail). apply both_named; [|apply IH]. destruct it; try (constructor; fail); apply one_named.
  Qed.
  (** The sequence kept in the fields is the value of the key [parallel]. *)
  Lemma parallel_fields_key name i : forall c bad qf l its, qf_items (parallel_fields Y (DItem name i) c bad qf).2 = Some (l, its) ->
    qf_items qf = Some (l, its) \/ exists k, (k, YSeq l its) ∈ c /\ value_of k = lit "parallel".
  Proof.
    induction c as [|[k v] r IH]; intros bad qf l its; cbn [parallel_fields]; [auto|].
    assert (Hk : qf_items (parallel_key Y (DItem name i) k v qf).2 = qf_items qf \/ value_of k = lit "parallel" /\ exists l its, v = YSeq l its /\ qf_items (parallel_key Y (DItem name i) k v qf).2 = Some (l, its)).
    { unfold parallel_key. destruct (is (value_of k) "parallel") eqn:Ep.
      { apply bool_decide_eq_true in Ep. destruct v; try (left; reflexivity). right. split; [exact Ep|]. eauto. }
      left. keyed; try reflexivity.
      - destruct v; try reflexivity. destruct (valid_mode _); reflexivity.
      - destruct (y_int Y v) as [z|]; [|reflexivity]. destruct (z <? 0)%Z; reflexivity.
      - destruct (parse_bool _ _ _) as [[? ?] ?]. reflexivity.
      - destruct (parse_bool _ _ _) as [[? ?] ?]. reflexivity.
      - destruct (parse_bool _ _ _) as [[? ?] ?]. reflexivity.
      - destruct (parse_platforms _ _ _ _) as [[? ?] ?]. reflexivity. }
    destruct (parallel_key Y (DItem name i) k v qf) as [[es ok] qf']. specialize (IH (if ok then bad else true) qf' l its).
    destruct (parallel_fields _ _ r _ _) as [[es' bad'] qf'']. cbn [fst snd] in *. intros E.
    destruct (IH E) as [E'|(k' & Hin & Hv)]; [|right; exists k'; split; [apply elem_of_list_further; exact Hin|exact Hv]].
    destruct Hk as [Hk|(Hv & l1 & its1 & -> & Hk)]; [left; congruence|]. right. exists k. rewrite Hk in E'. injection E' as -> ->. split; [apply elem_of_list_here|exact Hv].
  Qed.

  (** The errors of an item name the item, or an entry of a block in it. *)
  Definition placed (name : str) (i : nat) (n : node) (es : list derr) : Prop :=
    Forall (fun e : derr => forall t j ie, e.2 = DItem t j ie -> t = name /\
      ((j = i /\ line_in e.1 n) \/ exists l c pk pl its m, n = YMap l c /\ (pk, YSeq pl its) ∈ c /\ value_of pk = lit "parallel" /\ entry its j m /\ line_in e.1 m)) es.
  Definition listed (name : str) (its : list node) (es : list derr) : Prop :=
    Forall (fun e : derr => forall t j ie, e.2 = DItem t j ie -> t = name /\ exists m, entry its j m /\ line_in e.1 m) es.

  Lemma named_placed name i n es : named name i es -> located es [n] -> placed name i n es.
  Proof.
    intros H1 H2. unfold placed. rewrite Forall_forall in *. intros e He t j ie E. destruct (H1 e He _ _ _ E) as [-> ->]. split; [reflexivity|]. left. split; [reflexivity|]. apply line_at_one. exact (H2 e He).
  Qed.
  Lemma items_loop_listed item name its : (forall i n, placed name i n (item i n).1) -> listed name its (items_loop item 0 its).1.1.
  Proof.
    intros H. assert (G : forall post pre i, length pre = i -> listed name (pre ++ post) (items_loop item i post).1.1).
    { induction post as [|n post IH]; intros pre i Hi; cbn [items_loop]; [constructor|].
      specialize (IH (pre ++ [n]) (S i)). rewrite <- app_assoc in IH. specialize (IH ltac:(rewrite app_length; simpl; lia)). pose proof (H i n) as Hn. destruct (item i n) as [es it].
      destruct (items_loop item (S i) post) as [[es' bad] its']. cbn [fst snd] in *. apply Forall_app. split; [|exact IH].
      eapply Forall_impl; [exact Hn|]. intros e He t j ie E. assert (Hl : (pre ++ n :: post) !! i = Some n) by (apply list_lookup_middle; symmetry; exact Hi).
      destruct (He t j ie E) as (-> & [(-> & Hl')|(l & c & pk & pl & its1 & m & -> & Hin & Hv & Hm & Hl')]); (split; [reflexivity|]).
      - exists n. split; [apply entry_here; exact Hl|exact Hl'].
      - exists m. split; [|exact Hl']. eapply entry_block; [exact Hl|exact Hin|exact Hv|exact Hm]. }
    apply (G its [] 0). reflexivity.
  Qed.
  Lemma run_items_listed item name l its : (forall i n, placed name i n (item i n).1) -> listed name its (run_items_with item name (YSeq l its)).1.1.
  Proof. intros H. unfold run_items_with. pose proof (items_loop_listed item name its H) as Hl. destruct (items_loop item 0 its) as [[es bad] its']. exact Hl. Qed.

  Lemma item_placed_upto : forall fuel name i n, placed name i n (run_item_upto Y fuel name i n).1.
  Proof.
    induction fuel as [|fuel IH]; intros name i n; cbn [run_item_upto]; [constructor|].
    destruct n as [l t v|l its|l c|l a t]; try (apply named_placed; [apply one_named|apply located_here]).
    destruct (existsb _ c); [|apply named_placed; [apply plain_named|apply plain_located]].
    unfold parallel_item. pose proof (parallel_fields_located Y (DItem name i) l c false no_qf) as Hf. pose proof (parallel_fields_named name i c false no_qf) as Hn.
    pose proof (parallel_fields_key name i c false no_qf) as Hi. destruct (parallel_fields Y (DItem name i) c false no_qf) as [[es bad] qf]. cbn [fst snd] in *.
    assert (H0 : placed name i (YMap l c) es) by (apply named_placed; assumption).
    destruct bad; [exact H0|]. destruct (qf_items qf) as [[pl nodes]|] eqn:Eq; [|exact H0].
    destruct (Hi _ _ eq_refl) as [?|(k & Hin & Hv)]; [discriminate|].
    assert (S : forall es, located es [YSeq pl nodes] -> located es [YMap l c]) by (intros; eapply located_map; [exact Hin|apply located_second; assumption]).
    destruct nodes as [|m nodes]; [apply Forall_app; split; [exact H0|]; apply named_placed; [apply one_named|apply S, (located_here _ (YSeq pl []))]|].
    assert (H1 : placed name i (YMap l c) (run_items_with (run_item_upto Y fuel name) name (YSeq pl (m :: nodes))).1.1).
    { eapply Forall_impl; [apply (run_items_listed _ name pl (m :: nodes) (IH name))|]. intros e He t j ie E. destruct (He _ _ _ E) as (-> & m' & Hm & Hl). split; [reflexivity|]. right. exists l, c, k, pl, (m :: nodes), m'. auto. }
    destruct (run_items_with _ _ _) as [[es1 ok] items]. cbn [fst] in H1.
    destruct ok; [|apply Forall_app; auto].
    pose proof (validate_items_located (DItem name i) pl (m :: nodes) items) as Hv1. pose proof (validate_items_named name i (m :: nodes) items) as Hv2. destruct (validate_parallel_items _ _ _) as [es2 ok2]. cbn [fst] in Hv1, Hv2.
    assert (H2 : placed name i (YMap l c) es2) by (apply named_placed; [exact Hv2|apply S; exact Hv1]).
    destruct ok2; repeat (apply Forall_app; split); assumption.
  Qed.

  (** [e] is about an entry of the run list of a task in this list of tasks. *)
  Definition in_tasks (c : list (node * node)) (e : derr) : Prop :=
    forall t j ie, e.2 = DItem t j ie -> exists k tl tc rk rl its m, (k, YMap tl tc) ∈ c /\ value_of k = t /\ (rk, YSeq rl its) ∈ tc /\ value_of rk = lit "run" /\ entry its j m /\ line_in e.1 m.
  Definition in_task (name : str) (tc : list (node * node)) (e : derr) : Prop :=
    forall t j ie, e.2 = DItem t j ie -> t = name /\ exists rk rl its m, (rk, YSeq rl its) ∈ tc /\ value_of rk = lit "run" /\ entry its j m /\ line_in e.1 m.

  Lemma unnamed_in name tc es : unnamed es -> Forall (in_task name tc) es.
  Proof. intros H. eapply Forall_impl; [exact H|]. intros e He t j ie E. destruct (He _ _ _ E). Qed.
  Lemma task_key_in name tc k v bad t : (k, v) ∈ tc -> Forall (in_task name tc) (task_key Y name k v bad t).1.1.
  Proof.
    intros Hin. unfold task_key. destruct (is (value_of k) "run") eqn:Er.
    - apply bool_decide_eq_true in Er. unfold is. rewrite Er. cbn. unfold parse_run_items.
      destruct v as [l' t' v|l' its|l' c|l' a t']; try (apply unnamed_in, one_unnamed; discriminate).
      pose proof (run_items_listed (parse_run_item Y name) name l' its (fun i n => item_placed_upto _ name i n)) as H. destruct (run_items_with _ _ _) as [[es ok] its']. cbn [fst] in *.
      eapply Forall_impl; [exact H|]. intros e He t1 j ie E. destruct (He _ _ _ E) as (-> & m & Hm & Hl). split; [reflexivity|]. exists k, l', its, m. auto.
    - keyed; try (constructor; fail).
      + destruct (y_strs Y v); [constructor|]. apply unnamed_in, one_unnamed. discriminate.
      + pose proof (str_map_unnamed DVarsMap DVarsValue v (t_vars t) ltac:(discriminate) ltac:(discriminate)) as H. unfold parse_var_map. destruct (parse_str_map _ _ _ _) as [[es ok] b]. apply unnamed_in. exact H.
      + pose proof (str_map_unnamed DEnvMap DEnvValue v (t_env t) ltac:(discriminate) ltac:(discriminate)) as H. unfold parse_env_map. destruct (parse_str_map _ _ _ _) as [[es ok] b]. apply unnamed_in. exact H.
      + pose proof (bool_unnamed v (t_silent t)) as H. destruct (parse_bool _ _ _) as [[es ok] b]. apply unnamed_in. exact H.
      + pose proof (bool_unnamed v (t_output t)) as H. destruct (parse_bool _ _ _) as [[es ok] b]. apply unnamed_in. exact H.
      + destruct v; try (constructor; fail); apply unnamed_in, one_unnamed; discriminate.
      + destruct (y_strs Y v); [constructor|]. apply unnamed_in, one_unnamed. discriminate.
  Qed.
  Lemma task_in name tc : forall post bad t, (forall p, p ∈ post -> p ∈ tc) -> Forall (in_task name tc) (task_fields Y name post bad t).1.1.
  Proof.
    induction post as [|[k v] r IH]; intros bad t Hsub; cbn [task_fields]; [constructor|].
    pose proof (task_key_in name tc k v bad t (Hsub _ (elem_of_list_here _ _))) as H. destruct (task_key Y name k v bad t) as [[es bad'] t'].
    specialize (IH bad' t' (fun p Hp => Hsub p (elem_of_list_further _ _ _ Hp))). destruct (task_fields _ _ r _ _) as [[es' bad''] t'']. apply Forall_app. auto.
  Qed.
  Lemma tasks_in c : forall post lines tasks, (forall p, p ∈ post -> p ∈ c) -> Forall (in_tasks c) (tasks_loop Y post lines tasks).1.
  Proof.
    induction post as [|[k v] r IH]; intros lines tasks Hsub; cbn [tasks_loop]; [constructor|].
    assert (Hr : forall p, p ∈ r -> p ∈ c) by (intros p Hp; apply Hsub, elem_of_list_further, Hp).
    destruct (lines !! value_of k) as [o|].
    - specialize (IH lines tasks Hr). destruct (tasks_loop Y r lines tasks) as [es ts]. constructor; [|exact IH]. intros t j ie E. discriminate E.
    - assert (Ht : Forall (in_tasks c) (parse_task Y (value_of k) v).1).
      { unfold parse_task. destruct v as [l t v|l its|l tc|l a t]; try (constructor; [|constructor]; intros t' j ie E; discriminate E).
        pose proof (task_in (value_of k) tc tc false no_task (fun p H => H)) as H. destruct (task_fields _ _ tc _ _) as [[es bad] t]. eapply Forall_impl; [exact H|].
        intros e He t' j ie E. destruct (He _ _ _ E) as (-> & rk & rl & its & m & H1 & H2 & H3 & H4). exists k, l, tc, rk, rl, its, m. split; [apply Hsub, elem_of_list_here|]. auto. }
      destruct (parse_task Y (value_of k) v) as [es ot]. cbn [fst] in Ht.
      match goal with |- context [tasks_loop Y r ?a ?b] => specialize (IH a b Hr); destruct (tasks_loop Y r a b) as [es' ts] end. apply Forall_app. auto.
  Qed.
  (** Every error of a document that names a run item. *)
  Theorem errors_placed l c es line t i ie : unmarshal_node Y (YMap l c) = Err (EInvalid es) -> (line, DItem t i ie) ∈ es ->
    exists n sl sc k tl tc rk rl its m, (n, YMap sl sc) ∈ c /\ value_of n = lit "tasks" /\ (k, YMap tl tc) ∈ sc /\ value_of k = t /\ (rk, YSeq rl its) ∈ tc /\ value_of rk = lit "run" /\ entry its i m /\ line_in line m.
  Proof.
    set (Q := fun e : derr => forall t i ie, e.2 = DItem t i ie -> exists n sl sc k tl tc rk rl its m, (n, YMap sl sc) ∈ c /\ value_of n = lit "tasks" /\ (k, YMap tl tc) ∈ sc /\ value_of k = t /\ (rk, YSeq rl its) ∈ tc /\ value_of rk = lit "run" /\ entry its i m /\ line_in e.1 m).
    assert (U : forall es, unnamed es -> Forall Q es) by (intros es' H; eapply Forall_impl; [exact H|]; intros e He t' j ie' E; destruct (He _ _ _ E)).
    assert (G : forall post s, (forall p, p ∈ post -> p ∈ c) -> Forall Q (root_fields Y post s).1).
    { induction post as [|[k v] r IH]; intros s Hsub; cbn [root_fields]; [constructor|].
      assert (Hk : Forall Q (root_key Y k v s).1).
      { unfold root_key. destruct (is (value_of k) "tasks") eqn:Et.
        - apply bool_decide_eq_true in Et. unfold is. rewrite Et. cbn. unfold parse_tasks. destruct v as [l' t' v|l' its|l' sc|l' a t']; try (apply U, one_unnamed; discriminate).
          pose proof (tasks_in sc sc ∅ (f_tasks s) (fun p H => H)) as H. destruct (tasks_loop Y sc ∅ (f_tasks s)) as [es' ts]. cbn [fst] in *. eapply Forall_impl; [exact H|].
          intros e He t' j ie' E. destruct (He _ _ _ E) as (k' & tl & tc & rk & rl & its & m & H1 & H2 & H3 & H4 & H5 & H6). exists k, l', sc, k', tl, tc, rk, rl, its, m. split; [apply Hsub, elem_of_list_here|]. auto 10.
        - keyed; try (constructor; fail).
          + pose proof (str_map_unnamed DVarsMap DVarsValue v (f_vars s) ltac:(discriminate) ltac:(discriminate)) as H. unfold parse_var_map. destruct (parse_str_map _ _ _ _) as [[es' ok] b]. apply U. exact H.
          + pose proof (str_map_unnamed DEnvMap DEnvValue v (f_env s) ltac:(discriminate) ltac:(discriminate)) as H. unfold parse_env_map. destruct (parse_str_map _ _ _ _) as [[es' ok] b]. apply U. exact H.
          + pose proof (bool_unnamed v (f_silent s)) as H. destruct (parse_bool _ _ _) as [[es' ok] b]. apply U. exact H.
          + pose proof (bool_unnamed v (f_output s)) as H. destruct (parse_bool _ _ _) as [[es' ok] b]. apply U. exact H.
          + destruct v; try (constructor; fail); apply U, one_unnamed; discriminate.
          + unfold parse_includes. destruct v as [l' t' v|l' its|l' ic|l' a t']; try (apply U, one_unnamed; discriminate).
            assert (H : forall c incs, unnamed (includes_loop Y c incs).1).
            { clear. induction c as [|[k v] r IH]; intros incs; cbn [includes_loop]; [constructor|]. destruct (y_include Y v); [apply IH|]. specialize (IH incs). destruct (includes_loop Y r incs). constructor; [discriminate|exact IH]. }
            specialize (H ic (f_includes s)). destruct (includes_loop Y ic (f_includes s)). apply U. exact H. }
      destruct (root_key Y k v s) as [es1 s']. specialize (IH s' (fun p Hp => Hsub p (elem_of_list_further _ _ _ Hp))). destruct (root_fields Y r s') as [es2 s'']. apply Forall_app. auto. }
    intros E Hin. unfold unmarshal_node in E. specialize (G c no_schema (fun p H => H)). destruct (root_fields Y c no_schema) as [es0 s]. destruct es0 as [|e0 es0]; [discriminate E|]. injection E as <-. cbn [fst] in G.
    rewrite Forall_forall in G. exact (G _ Hin _ _ _ eq_refl).
  Qed.
End Place.
