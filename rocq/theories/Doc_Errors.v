(** Where the errors of a document point: each error carries a line of the entry it is about. *)
From Verif Require Import Base Types_Model Include_Model Doc_Model Doc_Spec Doc_Proof Doc_Item Doc_Tree Doc_File.

(** A line of a node or of one of its parts, not looking through aliases. *)
Inductive line_in (l : nat) : node -> Prop :=
| line_here n : l = line_of n -> line_in l n
| line_seq l' its n : n ∈ its -> line_in l n -> line_in l (YSeq l' its)
| line_key l' c k v : (k, v) ∈ c -> line_in l k -> line_in l (YMap l' c)
| line_val l' c k v : (k, v) ∈ c -> line_in l v -> line_in l (YMap l' c).
Definition line_at (l : nat) (spot : list node) : Prop := exists n, n ∈ spot /\ line_in l n.
Notation located es spot := (Forall (fun e : derr => line_at e.1 spot) es).

Lemma line_at_one l n : line_at l [n] <-> line_in l n.
Proof. split; [intros (m & H & ?); apply elem_of_list_singleton in H as ->; assumption|]. intros H. exists n. split; [apply elem_of_list_here|exact H]. Qed.
Lemma line_at_two l k v : line_at l [k; v] <-> line_in l k \/ line_in l v.
Proof.
  split.
  - intros (m & H & ?). apply elem_of_cons in H as [->|H]; [auto|]. apply elem_of_list_singleton in H as ->. auto.
  - intros [H|H]; [exists k|exists v]; (split; [|exact H]); [apply elem_of_list_here|apply elem_of_list_further, elem_of_list_here].
Qed.
Lemma located_key e k v : located [(line_of k, e)] [k; v].
Proof. repeat constructor. apply line_at_two. left. constructor. reflexivity. Qed.
Lemma located_val e k v : located [(line_of v, e)] [k; v].
Proof. repeat constructor. apply line_at_two. right. constructor. reflexivity. Qed.
Lemma located_second es k v : located es [v] -> located es [k; v].
Proof. intros H. eapply Forall_impl; [exact H|]. intros e. rewrite line_at_one, line_at_two. auto. Qed.
Lemma located_map es l c k v : (k, v) ∈ c -> located es [k; v] -> located es [YMap l c].
Proof. intros Hin H. eapply Forall_impl; [exact H|]. intros e. rewrite line_at_one, line_at_two. intros [?|?]; [eapply line_key|eapply line_val]; eassumption. Qed.
Lemma located_seq es l its n : n ∈ its -> located es [n] -> located es [YSeq l its].
Proof. intros Hin H. eapply Forall_impl; [exact H|]. intros e. rewrite !line_at_one. intros ?. eapply line_seq; eassumption. Qed.
Lemma located_here e n : located [(line_of n, e)] [n].
Proof. repeat constructor. apply line_at_one. constructor. reflexivity. Qed.

Lemma located_cons_map e es l c k v : (k, v) ∈ c -> located [e] [k; v] -> located es [YMap l c] -> located (e :: es) [YMap l c].
Proof. intros Hin H Hes. change (e :: es) with ([e] ++ es). apply Forall_app. split; [eapply located_map; eassumption|exact Hes]. Qed.

Lemma loop_located {A} (step : A -> node -> node -> list derr * A) c s :
  (forall s k v, located (step s k v).1 [k; v]) -> forall l, located (loop step c s).1 [YMap l c].
Proof.
  intros H l. assert (G : forall pre c s, located (loop step c s).1 [YMap l (pre ++ c)]).
  { intros pre c'. revert pre. induction c' as [|[k v] r IH]; intros pre s'; [constructor|]. rewrite loop_cons. cbn [fst]. apply Forall_app. split.
    - eapply located_map; [|apply H]. apply elem_of_app. right. apply elem_of_list_here.
    - specialize (IH (pre ++ [(k, v)]) (step s' k v).2). rewrite <- app_assoc in IH. exact IH. }
  exact (G [] c s).
Qed.

Section Errors.
  Context (Y : yaml).

  Lemma str_entries_located wrong l c : forall m b, located (str_entries wrong c m b).1.1 [YMap l c].
  Proof.
    assert (G : forall c pre m b, located (str_entries wrong c m b).1.1 [YMap l (pre ++ c)]).
    { clear. induction c as [|[k v] r IH]; intros pre m b; cbn [str_entries]; [constructor|].
      assert (IH' : forall m b, located (str_entries wrong r m b).1.1 [YMap l (pre ++ (k, v) :: r)]).
      { intros m' b'. specialize (IH (pre ++ [(k, v)]) m' b'). rewrite <- app_assoc in IH. exact IH. }
      assert (Hin : (k, v) ∈ pre ++ (k, v) :: r) by (apply elem_of_app; right; apply elem_of_list_here).
      destruct v as [l' t v|l' its|l' c|l' a t]; [apply IH'| | |].
      all: specialize (IH' m true); destruct (str_entries wrong r m true) as [[es bad] m']; cbn [fst snd] in *; (eapply located_cons_map; [exact Hin|apply located_val|exact IH']). }
    intros m b. exact (G c [] m b).
  Qed.
  Lemma str_map_located nm w n old : located (parse_str_map nm w n old).1.1 [n].
  Proof.
    unfold parse_str_map. destruct n as [l t v|l its|l c|l a t]; try apply located_here.
    pose proof (str_entries_located w l c ∅ false) as H. destruct (str_entries w c ∅ false) as [[es bad] m]. exact H.
  Qed.
  Lemma bool_located n old : located (parse_bool Y n old).1.1 [n].
  Proof. unfold parse_bool. destruct n; try apply (located_here _ (YSeq _ _)) || apply located_here. destruct (y_bool _ _); [constructor|]. apply (located_here _ (YScalar line tag value)). Qed.
  Lemma platforms_located k wrap v : located (parse_platforms Y (line_of k) wrap v).1.1 [k; v].
  Proof. unfold parse_platforms. destruct (y_strs Y v) as [ps|]; [|apply located_key]. destruct (filter _ ps); [constructor|apply located_key]. Qed.

  Ltac keyed_located :=
    repeat (match goal with |- context [if is ?a ?b then _ else _] => destruct (is a b) end).

  Lemma prompt_key_located wrap k v pf : located (parse_prompt_key Y k v wrap pf).1.1 [k; v].
  Proof.
    unfold parse_prompt_key. keyed_located; try (constructor; fail);
      try (destruct (y_strs Y v); [constructor|apply located_key]); try (destruct (y_int Y v); [constructor|apply located_key]).
    pose proof (bool_located v (pf_confirm pf)) as H. destruct (parse_bool _ _ _) as [[es ok] b]. apply located_second. exact H.
  Qed.
  Lemma run_key_located wrap rf k v : located (run_key Y wrap rf k v).1 [k; v].
  Proof.
    unfold run_key. keyed_located; try (constructor; fail).
    - destruct v; try (constructor; fail); apply located_val.
    - pose proof (str_map_located DEnvMap DEnvValue v (rf_env rf)) as H. unfold parse_env_map. destruct (parse_str_map _ _ _ _) as [[es ok] b]. apply located_second. exact H.
    - pose proof (bool_located v (rf_silent rf)) as H. destruct (parse_bool _ _ _) as [[es ok] b]. apply located_second. exact H.
    - pose proof (bool_located v (rf_output rf)) as H. destruct (parse_bool _ _ _) as [[es ok] b]. apply located_second. exact H.
    - pose proof (platforms_located k wrap v) as H. destruct (parse_platforms _ _ _ _) as [[es ok] b]. exact H.
    - pose proof (prompt_key_located wrap k v (rf_pf rf)) as H. destruct (parse_prompt_key _ _ _ _ _) as [[es ok] b]. exact H.
  Qed.
  Lemma run_fields_located wrap l c rf : located (run_fields Y wrap c rf).1 [YMap l c].
  Proof. rewrite run_fields_loop. apply loop_located. intros. apply run_key_located. Qed.

  (** The checks of a prompt all point to the item. *)
  Notation at_line line es := (Forall (fun e : derr => e.1 = line) es).
  Lemma report_line line wrap b e : at_line line (report line wrap b e).1.
  Proof. destruct b; repeat constructor. Qed.
  Lemma both_line line a b : at_line line a.1 -> at_line line b.1 -> at_line line (both a b).1.
  Proof. intros. apply Forall_app. auto. Qed.
  Lemma defaults_line line wrap o d : at_line line (defaults_in line wrap o d).1.
  Proof. induction d; [constructor|]. apply both_line; [apply report_line|assumption]. Qed.
  Lemma prompt_line line wrap pf ps w : at_line line (validate_prompt_run Y line wrap pf ps w).1.
  Proof.
    unfold validate_prompt_run. destruct (both _ _) as [es ok] eqn:E. cbn [fst]. change es with ((es, ok).1). rewrite <- E. clear E.
    unfold validate_basics, validate_options, validate_constraints, validate_type_specific. cbv zeta.
    repeat first [apply report_line|apply defaults_line|apply both_line|apply Forall_nil; exact I
      |match goal with |- context [if ?b then _ else _] => destruct b | |- context [match ?x with _ => _ end] => destruct x end].
  Qed.
  Lemma at_line_located l es n : at_line l es -> l = line_of n -> located es [n].
  Proof. intros H ->. eapply Forall_impl; [exact H|]. intros e ->. apply line_at_one. constructor. reflexivity. Qed.

  Lemma plain_located line wrap c : located (plain_item Y line wrap c).1 [YMap line c].
  Proof.
    unfold plain_item. pose proof (run_fields_located wrap line c no_rf) as H. destruct (run_fields Y wrap c no_rf) as [es rf]. cbn [fst] in H.
    assert (One : forall e, located [(line, e)] [YMap line c]) by (intros e; apply (located_here e (YMap line c))).
    destruct (1 <? _); [apply Forall_app; auto|]. destruct (_ =? 0); [apply Forall_app; auto|]. destruct (rf_bad rf); [exact H|].
    destruct (given _); [exact H|]. destruct (given _); [exact H|]. destruct (given _).
    - unfold build_log_run. destruct (valid_level _); apply Forall_app; split; auto using Forall_nil_2.
    - destruct (given _); [|exact H]. pose proof (prompt_line line wrap (rf_pf rf) (rf_platforms rf) (rf_when rf)) as Hp.
      destruct (validate_prompt_run _ _ _ _ _ _) as [es' it]. apply Forall_app. split; [exact H|]. eapply at_line_located; [exact Hp|reflexivity].
  Qed.

  Lemma parallel_key_located wrap k v qf : located (parallel_key Y wrap k v qf).1.1 [k; v].
  Proof.
    unfold parallel_key. keyed_located; try (constructor; fail).
    - destruct v; try (constructor; fail); apply located_val.
    - destruct v as [l t m|l its|l c|l a t]; try apply located_val. destruct (valid_mode m); [constructor|]. apply (located_val _ k (YScalar l t m)).
    - destruct (y_int Y v) as [z|]; [|apply located_val]. destruct (z <? 0)%Z; [apply located_val|constructor].
    - pose proof (bool_located v (qf_color qf)) as H. destruct (parse_bool _ _ _) as [[es ok] b]. apply located_second. exact H.
    - pose proof (bool_located v (qf_silent qf)) as H. destruct (parse_bool _ _ _) as [[es ok] b]. apply located_second. exact H.
    - pose proof (bool_located v (qf_output qf)) as H. destruct (parse_bool _ _ _) as [[es ok] b]. apply located_second. exact H.
    - pose proof (platforms_located k wrap v) as H. destruct (parse_platforms _ _ _ _) as [[es ok] b]. exact H.
    - apply located_key.
  Qed.
  Lemma parallel_fields_located wrap l c : forall bad qf, located (parallel_fields Y wrap c bad qf).1.1 [YMap l c].
  Proof.
    assert (G : forall c pre bad qf, located (parallel_fields Y wrap c bad qf).1.1 [YMap l (pre ++ c)]).
    { clear. induction c as [|[k v] r IH]; intros pre bad qf; cbn [parallel_fields]; [constructor|].
      pose proof (parallel_key_located wrap k v qf) as H. destruct (parallel_key Y wrap k v qf) as [[es ok] qf'].
      specialize (IH (pre ++ [(k, v)]) (if ok then bad else true) qf'). rewrite <- app_assoc in IH.
      destruct (parallel_fields _ _ r _ _) as [[es' bad'] qf'']. cbn [fst snd] in *. apply Forall_app. split; [|exact IH].
      eapply located_map; [|exact H]. apply elem_of_app. right. apply elem_of_list_here. }
    intros. exact (G c [] bad qf).
  Qed.
  Lemma validate_items_located wrap l nodes : forall items, located (validate_parallel_items wrap nodes items).1 [YSeq l nodes].
  Proof.
    assert (G : forall nodes pre items, located (validate_parallel_items wrap nodes items).1 [YSeq l (pre ++ nodes)]).
    { clear. induction nodes as [|n nodes IH]; intros pre [|it items]; cbn [validate_parallel_items]; try constructor.
      specialize (IH (pre ++ [n]) items). rewrite <- app_assoc in IH. apply Forall_app. split; [|exact IH].
      assert (Hin : n ∈ pre ++ n :: nodes) by (apply elem_of_app; right; apply elem_of_list_here).
      destruct it; try (constructor; fail); (eapply located_seq; [exact Hin|apply located_here]). }
    intros. exact (G nodes [] items).
  Qed.
  Lemma items_loop_located item l its : (forall i n, located (item i n).1 [n]) -> forall i, located (items_loop item i its).1.1 [YSeq l its].
  Proof.
    intros H. assert (G : forall its pre i, located (items_loop item i its).1.1 [YSeq l (pre ++ its)]).
    { clear its. induction its as [|n its IH]; intros pre i; cbn [items_loop]; [constructor|].
      specialize (IH (pre ++ [n]) (S i)). rewrite <- app_assoc in IH. pose proof (H i n) as Hn. destruct (item i n) as [es it].
      destruct (items_loop item (S i) its) as [[es' bad] its']. cbn [fst snd] in *. apply Forall_app. split; [|exact IH].
      eapply located_seq; [|exact Hn]. apply elem_of_app. right. apply elem_of_list_here. }
    intros i. exact (G its [] i).
  Qed.
  Lemma run_items_located item name n : (forall i n, located (item i n).1 [n]) -> located (run_items_with item name n).1.1 [n].
  Proof.
    intros H. unfold run_items_with. destruct n as [l t v|l its|l c|l a t]; try apply located_here.
    pose proof (items_loop_located item l its H 0) as Hl. destruct (items_loop item 0 its) as [[es bad] its']. exact Hl.
  Qed.

  (** The sequence kept in the fields is one of the values. *)
  Lemma parallel_fields_items wrap : forall c bad qf l its, qf_items (parallel_fields Y wrap c bad qf).2 = Some (l, its) ->
    qf_items qf = Some (l, its) \/ exists k, (k, YSeq l its) ∈ c.
  Proof.
    induction c as [|[k v] r IH]; intros bad qf l its; cbn [parallel_fields]; [auto|].
    assert (Hk : qf_items (parallel_key Y wrap k v qf).2 = qf_items qf \/ exists l its, v = YSeq l its /\ qf_items (parallel_key Y wrap k v qf).2 = Some (l, its)).
    { unfold parallel_key. keyed_located; try (left; reflexivity).
      - destruct v; try (left; reflexivity). right. eauto.
      - left. destruct v; try reflexivity. destruct (valid_mode _); reflexivity.
      - left. destruct (y_int Y v) as [z|]; [|reflexivity]. destruct (z <? 0)%Z; reflexivity.
      - left. destruct (parse_bool _ _ _) as [[? ?] ?]. reflexivity.
      - left. destruct (parse_bool _ _ _) as [[? ?] ?]. reflexivity.
      - left. destruct (parse_bool _ _ _) as [[? ?] ?]. reflexivity.
      - left. destruct (parse_platforms _ _ _ _) as [[? ?] ?]. reflexivity. }
    destruct (parallel_key Y wrap k v qf) as [[es ok] qf']. specialize (IH (if ok then bad else true) qf' l its).
    destruct (parallel_fields _ _ r _ _) as [[es' bad'] qf'']. cbn [fst snd] in *. intros E.
    destruct (IH E) as [E'|(k' & Hin)]; [|right; exists k'; apply elem_of_list_further; exact Hin].
    destruct Hk as [Hk|(l1 & its1 & -> & Hk)]; [left; congruence|]. right. exists k. rewrite Hk in E'. injection E' as -> ->. apply elem_of_list_here.
  Qed.

  Lemma parallel_located items_of line wrap c : (forall n, located (items_of n).1.1 [n]) -> located (parallel_item Y items_of line wrap c).1 [YMap line c].
  Proof.
    intros H. unfold parallel_item. pose proof (parallel_fields_located wrap line c false no_qf) as Hf.
    pose proof (parallel_fields_items wrap c false no_qf) as Hi. destruct (parallel_fields Y wrap c false no_qf) as [[es bad] qf]. cbn [fst snd] in *.
    destruct bad; [exact Hf|]. destruct (qf_items qf) as [[l nodes]|] eqn:Eq; [|exact Hf].
    destruct (Hi _ _ eq_refl) as [?|(k & Hin)]; [discriminate|].
    assert (S : forall es, located es [YSeq l nodes] -> located es [YMap line c]) by (intros; eapply located_map; [exact Hin|apply located_second; assumption]).
    destruct nodes as [|n nodes]; [apply Forall_app; split; [exact Hf|]; apply S, (located_here _ (YSeq l []))|].
    pose proof (H (YSeq l (n :: nodes))) as Hn. destruct (items_of _) as [[es1 ok] items]. cbn [fst] in Hn.
    destruct ok; [|apply Forall_app; split; [exact Hf|apply S; exact Hn]].
    pose proof (validate_items_located wrap l (n :: nodes) items) as Hv. destruct (validate_parallel_items _ _ _) as [es2 ok2]. cbn [fst] in Hv.
    destruct ok2; repeat (apply Forall_app; split); auto.
  Qed.

  Lemma run_item_located : forall fuel name i n, located (run_item_upto Y fuel name i n).1 [n].
  Proof.
    induction fuel as [|fuel IH]; intros name i n; cbn [run_item_upto]; [constructor|].
    destruct n as [l t v|l its|l c|l a t]; try apply located_here. destruct (existsb _ c); [|apply plain_located].
    apply parallel_located. intros n. apply run_items_located. intros. apply IH.
  Qed.
  Lemma item_located name i n : located (parse_run_item Y name i n).1 [n].
  Proof. apply run_item_located. Qed.

  Lemma task_key_located name k v bad t : located (task_key Y name k v bad t).1.1 [k; v].
  Proof.
    unfold task_key. keyed_located; try (constructor; fail).
    - destruct (y_strs Y v); [constructor|apply located_key].
    - pose proof (str_map_located DVarsMap DVarsValue v (t_vars t)) as H. unfold parse_var_map. destruct (parse_str_map _ _ _ _) as [[es ok] b]. apply located_second. exact H.
    - pose proof (str_map_located DEnvMap DEnvValue v (t_env t)) as H. unfold parse_env_map. destruct (parse_str_map _ _ _ _) as [[es ok] b]. apply located_second. exact H.
    - pose proof (bool_located v (t_silent t)) as H. destruct (parse_bool _ _ _) as [[es ok] b]. apply located_second. exact H.
    - pose proof (bool_located v (t_output t)) as H. destruct (parse_bool _ _ _) as [[es ok] b]. apply located_second. exact H.
    - destruct v; try (constructor; fail); apply located_val.
    - destruct (y_strs Y v); [constructor|apply located_key].
    - unfold parse_run_items. pose proof (run_items_located (parse_run_item Y name) name v (fun i n => item_located name i n)) as H.
      destruct (run_items_with _ _ _) as [[es ok] its]. apply located_second. exact H.
  Qed.
  Lemma task_located name n : located (parse_task Y name n).1 [n].
  Proof.
    unfold parse_task. destruct n as [l t v|l its|l c|l a t]; try apply located_here.
    assert (G : forall c pre bad t, located (task_fields Y name c bad t).1.1 [YMap l (pre ++ c)]).
    { clear c. induction c as [|[k v] r IH]; intros pre bad t; cbn [task_fields]; [constructor|].
      pose proof (task_key_located name k v bad t) as H. destruct (task_key Y name k v bad t) as [[es bad'] t'].
      specialize (IH (pre ++ [(k, v)]) bad' t'). rewrite <- app_assoc in IH. destruct (task_fields _ _ r _ _) as [[es' bad''] t'']. cbn [fst snd] in *.
      apply Forall_app. split; [|exact IH]. eapply located_map; [|exact H]. apply elem_of_app. right. apply elem_of_list_here. }
    specialize (G c [] false no_task). destruct (task_fields _ _ c _ _) as [[es bad] t]. exact G.
  Qed.
  Lemma tasks_loop_located l c : forall lines tasks, located (tasks_loop Y c lines tasks).1 [YMap l c].
  Proof.
    assert (G : forall c pre lines tasks, located (tasks_loop Y c lines tasks).1 [YMap l (pre ++ c)]).
    { clear c. induction c as [|[k v] r IH]; intros pre lines tasks; cbn [tasks_loop]; [constructor|].
      assert (Hin : (k, v) ∈ pre ++ (k, v) :: r) by (apply elem_of_app; right; apply elem_of_list_here).
      destruct (lines !! value_of k) as [o|].
      - specialize (IH (pre ++ [(k, v)]) lines tasks). rewrite <- app_assoc in IH. destruct (tasks_loop Y r lines tasks) as [es ts]. cbn [fst] in *.
        eapply located_cons_map; [exact Hin|apply located_key|exact IH].
      - pose proof (task_located (value_of k) v) as Ht. destruct (parse_task Y (value_of k) v) as [es ot]. cbn [fst] in Ht.
        match goal with |- context [tasks_loop Y r ?a ?b] => specialize (IH (pre ++ [(k, v)]) a b); rewrite <- app_assoc in IH; destruct (tasks_loop Y r a b) as [es' ts] end.
        cbn [fst] in *. apply Forall_app. split; [|exact IH]. eapply located_map; [exact Hin|]. apply located_second. exact Ht. }
    intros. exact (G c [] lines tasks).
  Qed.
  Lemma includes_loop_located l c : forall incs, located (includes_loop Y c incs).1 [YMap l c].
  Proof.
    assert (G : forall c pre incs, located (includes_loop Y c incs).1 [YMap l (pre ++ c)]).
    { clear c. induction c as [|[k v] r IH]; intros pre incs; cbn [includes_loop]; [constructor|].
      assert (Hin : (k, v) ∈ pre ++ (k, v) :: r) by (apply elem_of_app; right; apply elem_of_list_here).
      destruct (y_include Y v) as [p|].
      - specialize (IH (pre ++ [(k, v)]) (<[value_of k := p]> incs)). rewrite <- app_assoc in IH. exact IH.
      - specialize (IH (pre ++ [(k, v)]) incs). rewrite <- app_assoc in IH. destruct (includes_loop Y r incs) as [es ts]. cbn [fst] in *.
        eapply located_cons_map; [exact Hin|apply located_key|exact IH]. }
    intros. exact (G c [] incs).
  Qed.
  Lemma root_located s k v : located (root_step Y s k v).1 [k; v].
  Proof.
    unfold root_step, root_key. keyed_located; try (constructor; fail).
    - pose proof (str_map_located DVarsMap DVarsValue v (f_vars s)) as H. unfold parse_var_map. destruct (parse_str_map _ _ _ _) as [[es ok] b]. apply located_second. exact H.
    - pose proof (str_map_located DEnvMap DEnvValue v (f_env s)) as H. unfold parse_env_map. destruct (parse_str_map _ _ _ _) as [[es ok] b]. apply located_second. exact H.
    - pose proof (bool_located v (f_silent s)) as H. destruct (parse_bool _ _ _) as [[es ok] b]. apply located_second. exact H.
    - pose proof (bool_located v (f_output s)) as H. destruct (parse_bool _ _ _) as [[es ok] b]. apply located_second. exact H.
    - destruct v; try (constructor; fail); apply located_val.
    - unfold parse_tasks. destruct v as [l t v|l its|l c|l a t]; try apply located_val.
      pose proof (tasks_loop_located l c ∅ (f_tasks s)) as H. destruct (tasks_loop Y c ∅ (f_tasks s)). apply located_second. exact H.
    - unfold parse_includes. destruct v as [l t v|l its|l c|l a t]; try apply located_val.
      pose proof (includes_loop_located l c (f_includes s)) as H. destruct (includes_loop Y c (f_includes s)). apply located_second. exact H.
  Qed.
  Theorem errors_located n es : unmarshal_node Y n = Err (EInvalid es) -> located es [n].
  Proof.
    unfold unmarshal_node. destruct n as [l t v|l its|l c|l a t]; try (intros [= <-]; apply located_here).
    rewrite root_fields_loop. pose proof (loop_located (root_step Y) c no_schema root_located l) as H. destruct (loop (root_step Y) c no_schema) as [[|e es'] s]; [discriminate|].
    intros [= <-]. exact H.
  Qed.
End Errors.
