(** Tasks, sections and whole documents. *)
From Verif Require Import Base Types_Model Include_Model Doc_Model Doc_Spec Doc_Proof Doc_Item Doc_Tree.

(** A part of the state set from the key node. *)
Lemma loop_last_key {St T} (step : St -> node -> node -> list derr * St) (g : St -> T) (k : string) (h : node -> T) c s :
  (forall s a v, value_of a = lit k -> (step s a v).1 = [] -> g (step s a v).2 = h a) ->
  (forall s a v, value_of a <> lit k -> g (step s a v).2 = g s) ->
  (loop step c s).1 = [] -> g (loop step c s).2 = match key_at c k with Some a => h a | None => g s end.
Proof.
  intros Hset Hkeep. revert s. induction c as [|[a v] r IH]; intros s; [reflexivity|].
  rewrite loop_cons. cbn [fst snd]. rewrite app_nil. intros [H1 H2]. rewrite (IH _ H2).
  unfold key_at. rewrite filter_cons. cbn [fst].
  destruct (decide (value_of a = lit k)) as [E|E].
  - cbn [fmap list_fmap fst]. rewrite last_cons. destruct (last _); [reflexivity|]. apply Hset; assumption.
  - destruct (last _); [reflexivity|]. apply Hkeep. exact E.
Qed.

Section File.
  Context (Y : yaml).
  Notation becomes := (becomes Y).

  (** ** Tasks *)
  Lemma Forall_ex_Forall2 {A B} (R : A -> B -> Prop) l : Forall (fun x => exists y, R x y) l <-> exists l', Forall2 R l l'.
  Proof.
    split.
    - induction 1 as [|x l [y H] _ [l' IH]]; [exists []; constructor|]. exists (y :: l'). constructor; assumption.
    - intros [l' H]. induction H; constructor; eauto.
  Qed.

  Lemma task_strs x v : one_of ["aliases"; "deps"] x -> task_entry_ok Y x v <-> is_Some (y_strs Y v).
  Proof. intros Hx. split; [intros H; exact (to_strs _ _ _ H Hx)|]. intros H. constructor; intros; keys; exact H. Qed.
  Lemma task_map x v : one_of ["vars"; "env"] x -> task_entry_ok Y x v <-> str_map_ok v.
  Proof. intros Hx. split; [intros H; exact (to_map _ _ _ H Hx)|]. intros H. constructor; intros; keys; exact H. Qed.
  Lemma task_bool x v : one_of ["silent"; "output"] x -> task_entry_ok Y x v <-> bool_ok Y v.
  Proof. intros Hx. split; [intros H; exact (to_bool _ _ _ H Hx)|]. intros H. constructor; intros; keys; exact H. Qed.
  Lemma task_run_key name v : (parse_run_items Y name v).1.1 = [] <-> task_entry_ok Y (lit "run") v.
  Proof.
    destruct (parse_run_items_spec Y name v) as [R1 R2]. rewrite R2. split.
    - intros H. destruct (proj2 (R1 _) (conj H eq_refl)) as (l & c & -> & Hf). constructor; intros; keys. exists l, c. split; [reflexivity|]. apply Forall_ex_Forall2. eauto.
    - intros H. destruct (to_run _ _ _ H eq_refl) as (l & c & -> & Hf). apply Forall_ex_Forall2 in Hf as [items Hf].
      destruct (proj1 (R1 items)) as [H1 _]; [exists l, c; auto|exact H1].
  Qed.

  Definition task_step (name : str) (s : bool * task) (k v : node) : list derr * (bool * task) :=
    let '(es, bad, t) := task_key Y name k v s.1 s.2 in (es, (bad, t)).
  Lemma task_step_eq name s k v : task_step name s k v =
    ((task_key Y name k v s.1 s.2).1.1, ((task_key Y name k v s.1 s.2).1.2, (task_key Y name k v s.1 s.2).2)).
  Proof. unfold task_step. destruct (task_key Y name k v s.1 s.2) as [[es b] t]. reflexivity. Qed.
  Lemma task_fields_loop name c bad t :
    task_fields Y name c bad t = ((loop (task_step name) c (bad, t)).1, (loop (task_step name) c (bad, t)).2.1, (loop (task_step name) c (bad, t)).2.2).
  Proof.
    revert bad t. induction c as [|[k v] r IH]; intros bad t; [reflexivity|]. rewrite loop_cons, task_step_eq. cbn [fst snd task_fields].
    destruct (task_key Y name k v bad t) as [[es b] t']. cbn [fst snd]. rewrite IH. reflexivity.
  Qed.

  Lemma task_key_ok name k v bad t :
    ((task_key Y name k v bad t).1.1 = [] <-> task_entry_ok Y (value_of k) v) /\
    ((task_key Y name k v bad t).1.2 = false <-> (task_key Y name k v bad t).1.1 = [] /\ bad = false).
  Proof.
    unfold task_key, flag, parse_var_map, parse_env_map. generalize (value_of k) as x. intros x.
    do 2 (key_case; [cbn [fst snd]; split; [split; [intros _; constructor; intros; keys|reflexivity]|tauto]|]).
    key_case. { rewrite task_strs by one. destruct (y_strs Y v); cbn [fst snd]; split; try tauto; split; intros H; eauto; try discriminate; destruct H; discriminate. }
    key_case. { rewrite task_map by one. destruct (parse_str_map_spec DVarsMap DVarsValue v (t_vars t)) as (H1 & H2 & _).
      destruct (parse_str_map _ _ _ _) as [[es ok] m]. cbn [fst snd] in *. split; [exact H1|]. rewrite <- H2. destruct ok; [tauto|split; [discriminate|intros [? _]; discriminate]]. }
    key_case. { rewrite task_map by one. destruct (parse_str_map_spec DEnvMap DEnvValue v (t_env t)) as (H1 & H2 & _).
      destruct (parse_str_map _ _ _ _) as [[es ok] m]. cbn [fst snd] in *. split; [exact H1|]. rewrite <- H2. destruct ok; [tauto|split; [discriminate|intros [? _]; discriminate]]. }
    key_case. { rewrite task_bool by one. destruct (parse_bool_spec Y v (t_silent t)) as (H1 & H2 & _).
      destruct (parse_bool _ _ _) as [[es ok] m]. cbn [fst snd] in *. split; [exact H1|]. rewrite <- H2. destruct ok; [tauto|split; [discriminate|intros [? _]; discriminate]]. }
    key_case. { rewrite task_bool by one. destruct (parse_bool_spec Y v (t_output t)) as (H1 & H2 & _).
      destruct (parse_bool _ _ _) as [[es ok] m]. cbn [fst snd] in *. split; [exact H1|]. rewrite <- H2. destruct ok; [tauto|split; [discriminate|intros [? _]; discriminate]]. }
    key_case. { assert (Ed : task_entry_ok Y (lit "dir") v <-> scalar v).
      { split; [intros H; exact (to_dir _ _ _ H eq_refl)|]. intros H. constructor; intros; keys; exact H. }
      rewrite Ed. destruct v; cbn [fst snd scalar]; split; try tauto; split; intros H; try discriminate; try reflexivity; try exact I; try (destruct H; discriminate); destruct H. }
    key_case. { cbn [fst snd]. split; [split; [intros _; constructor; intros; keys|reflexivity]|tauto]. }
    key_case. { rewrite task_strs by one. destruct (y_strs Y v); cbn [fst snd]; split; try tauto; split; intros H; eauto; try discriminate; destruct H; discriminate. }
    key_case. { pose proof (task_run_key name v) as H1. destruct (parse_run_items_spec Y name v) as [_ H2].
      destruct (parse_run_items Y name v) as [[es ok] its]. cbn [fst snd] in *. split; [exact H1|]. rewrite H2. destruct ok; [tauto|split; [discriminate|intros [? _]; discriminate]]. }
    cbn [fst snd]. split; [split; [intros _; constructor; intros; keys|reflexivity]|tauto].
  Qed.

  Lemma task_ok name c s : (loop (task_step name) c s).1 = [] <-> Forall (fun kv => task_entry_ok Y (value_of kv.1) kv.2) c.
  Proof. apply (loop_ok (task_step name) (fun k v => task_entry_ok Y (value_of k) v)). intros s' k v. rewrite task_step_eq. cbn [fst]. apply task_key_ok. Qed.
  Lemma task_flag name c s : (loop (task_step name) c s).2.1 = false <-> (loop (task_step name) c s).1 = [] /\ s.1 = false.
  Proof.
    revert s. induction c as [|[k v] r IH]; intros s; [simpl; tauto|]. rewrite loop_cons. cbn [fst snd]. rewrite IH, app_nil, task_step_eq. cbn [fst snd].
    destruct (task_key_ok name k v s.1 s.2) as [_ H]. rewrite H. tauto.
  Qed.

  Ltac untouched := intros s1 a v Hne; rewrite task_step_eq; cbn [fst snd]; unfold task_key, parse_var_map, parse_env_map;
    repeat (match goal with |- context [if is ?x ?b then _ else _] => let E := fresh in destruct (is x b) eqn:E; [apply is_true in E; try (destruct (Hne E))|clear E] end);
    try reflexivity;
    try (match goal with
         | |- context [parse_bool ?a ?b ?c] => destruct (parse_bool a b c) as [[? ?] ?]
         | |- context [parse_str_map ?a ?b ?c ?d] => destruct (parse_str_map a b c d) as [[? ?] ?]
         | |- context [parse_run_items ?a ?b ?c] => destruct (parse_run_items a b c) as [[? ?] ?]
         | |- context [y_strs ?a ?b] => destruct (y_strs a b)
         | v : node |- _ => destruct v
         end); reflexivity.
  Ltac here := intros s1 a v E; rewrite task_step_eq; cbn [fst snd]; unfold task_key, parse_var_map, parse_env_map; rewrite E, !is_lit; cbn [String.eqb Ascii.eqb Bool.eqb].

  Ltac kept := rewrite task_step_eq; cbn [fst snd]; unfold task_key, parse_var_map, parse_env_map;
    repeat (match goal with |- context [if is ?x ?b then _ else _] => destruct (is x b) end);
    try reflexivity;
    try (match goal with
         | |- context [parse_bool ?a ?b ?c] => destruct (parse_bool a b c) as [[? ?] ?]
         | |- context [parse_str_map ?a ?b ?c ?d] => destruct (parse_str_map a b c d) as [[? ?] ?]
         | |- context [parse_run_items ?a ?b ?c] => destruct (parse_run_items a b c) as [[? ?] ?]
         | |- context [y_strs ?a ?b] => destruct (y_strs a b)
         | v : node |- _ => destruct v
         end); reflexivity.

  Definition run_of_node (name : str) (v : node) : list run_item := (parse_run_items Y name v).2.
  Definition body (name : str) (c : list (node * node)) : task :=
    Task [] 0 (match key_at c "deps" with Some n => line_of n | None => 0 end) [] (text c "desc") (text c "alias")
      (strs_of Y c "aliases") (map_of c "vars") (map_of c "env") (bool_of Y c "silent") (bool_of Y c "output") (text c "dir")
      (text c "when") (strs_of Y c "deps") (match field c "run" with Some v => run_of_node name v | None => [] end).

  Lemma task_ext (a b : task) : t_name a = t_name b -> t_line a = t_line b -> t_deps_line a = t_deps_line b -> t_source a = t_source b -> t_desc a = t_desc b ->
    t_alias a = t_alias b -> t_aliases a = t_aliases b -> t_vars a = t_vars b -> t_env a = t_env b -> t_silent a = t_silent b -> t_output a = t_output b ->
    t_dir a = t_dir b -> t_when a = t_when b -> t_deps a = t_deps b -> t_run a = t_run b -> a = b.
  Proof. destruct a, b. simpl. intros. subst. reflexivity. Qed.

  Lemma task_fields_reads name c : (loop (task_step name) c (false, no_task)).1 = [] -> (loop (task_step name) c (false, no_task)).2.2 = body name c.
  Proof.
    intros H. apply task_ext; unfold body; cbn [t_name t_line t_deps_line t_source t_desc t_alias t_aliases t_vars t_env t_silent t_output t_dir t_when t_deps t_run].
    all: unfold text, strs_of, bool_of, map_of.
    - apply (loop_inv (task_step name) (fun s => t_name s.2 = [])); [|exact H|reflexivity]. intros s k v _ <-. kept.
    - apply (loop_inv (task_step name) (fun s => t_line s.2 = 0)); [|exact H|reflexivity]. intros s k v _ <-. kept.
    - refine (loop_last_key (task_step name) (fun s => t_deps_line s.2) "deps" line_of c (false, no_task) _ _ H); [|untouched]. here. destruct (y_strs Y v); reflexivity.
    - apply (loop_inv (task_step name) (fun s => t_source s.2 = [])); [|exact H|reflexivity]. intros s k v _ <-. kept.
    - refine (loop_last (task_step name) (fun s => t_desc s.2) "desc" value_of c (false, no_task) _ _ H); [|untouched]. here. reflexivity.
    - refine (loop_last (task_step name) (fun s => t_alias s.2) "alias" value_of c (false, no_task) _ _ H); [|untouched]. here. reflexivity.
    - rewrite (loop_last (task_step name) (fun s => t_aliases s.2) "aliases" (fun v => default [] (y_strs Y v)) c (false, no_task)); [|here|untouched|exact H].
      + destruct (field c "aliases"); reflexivity.
      + destruct (y_strs Y v); [reflexivity|discriminate].
    - rewrite (loop_last (task_step name) (fun s => t_vars s.2) "vars" (fun v => Some (str_map v)) c (false, no_task)); [|here|untouched|exact H].
      + destruct (field c "vars"); reflexivity.
      + destruct (parse_str_map_spec DVarsMap DVarsValue v (t_vars s1.2)) as (_ & _ & H'). destruct (parse_str_map _ _ _ _) as [[es ok] m]. exact H'.
    - rewrite (loop_last (task_step name) (fun s => t_env s.2) "env" (fun v => Some (str_map v)) c (false, no_task)); [|here|untouched|exact H].
      + destruct (field c "env"); reflexivity.
      + destruct (parse_str_map_spec DEnvMap DEnvValue v (t_env s1.2)) as (_ & _ & H'). destruct (parse_str_map _ _ _ _) as [[es ok] m]. exact H'.
    - rewrite (loop_last (task_step name) (fun s => t_silent s.2) "silent" (y_bool Y) c (false, no_task)); [|here|untouched|exact H].
      + destruct (field c "silent"); reflexivity.
      + destruct (parse_bool_spec Y v (t_silent s1.2)) as (_ & _ & H'). destruct (parse_bool _ _ _) as [[es ok] m]. exact H'.
    - rewrite (loop_last (task_step name) (fun s => t_output s.2) "output" (y_bool Y) c (false, no_task)); [|here|untouched|exact H].
      + destruct (field c "output"); reflexivity.
      + destruct (parse_bool_spec Y v (t_output s1.2)) as (_ & _ & H'). destruct (parse_bool _ _ _) as [[es ok] m]. exact H'.
    - refine (loop_last (task_step name) (fun s => t_dir s.2) "dir" value_of c (false, no_task) _ _ H); [|untouched]. here. destruct v; reflexivity || discriminate.
    - refine (loop_last (task_step name) (fun s => t_when s.2) "when" value_of c (false, no_task) _ _ H); [|untouched]. here. reflexivity.
    - rewrite (loop_last (task_step name) (fun s => t_deps s.2) "deps" (fun v => default [] (y_strs Y v)) c (false, no_task)); [|here|untouched|exact H].
      + destruct (field c "deps"); reflexivity.
      + destruct (y_strs Y v); [reflexivity|discriminate].
    - refine (loop_last (task_step name) (fun s => t_run s.2) "run" (run_of_node name) c (false, no_task) _ _ H); [|untouched]. here.
      unfold run_of_node. destruct (parse_run_items Y name v) as [[es ok] its]. reflexivity.
  Qed.

  (** The task of an entry, once its name is known. *)
  Definition task_at (kv : node * node) : option task := set_t_line (line_of kv.1) <$> (parse_task Y (value_of kv.1) kv.2).2.
  Lemma parse_task_spec k v :
    (forall t, task_means Y k v t <-> task_at (k, v) = Some t) /\
    ((parse_task Y (value_of k) v).1 = [] <-> is_Some (task_at (k, v))).
  Proof.
    unfold task_at, parse_task, task_means. cbn [fst snd]. destruct v as [l t0 v|l c|l c|l a t0]; cbn [fst snd].
    1, 2, 4: (split; [intros t; split; [intros (? & ? & ? & _); discriminate|discriminate]|split; [discriminate|intros [? ?]; discriminate]]).
    rewrite task_fields_loop. pose proof (task_ok (value_of k) c (false, no_task)) as Ho. pose proof (task_flag (value_of k) c (false, no_task)) as Hf.
    pose proof (task_fields_reads (value_of k) c) as Hr. destruct (loop (task_step (value_of k)) c (false, no_task)) as [es [bad t]]. cbn [fst snd] in *.
    destruct bad.
    { assert (Hne : es <> []) by (intros E; discriminate (proj2 Hf (conj E eq_refl))). cbn [fmap option_fmap option_map]. split.
      - intros t'. split; [|discriminate]. intros (? & ? & [= <- <-] & H & _). destruct (Hne (proj2 Ho H)).
      - split; [intros E; contradiction|intros [? ?]; discriminate]. }
    assert (Es : es = []) by (apply Hf; reflexivity). rewrite (Hr Es). cbn [fmap option_fmap option_map]. split; [|split; [eauto|intros _; exact Es]].
    assert (Hc : Forall (fun kv => task_entry_ok Y (value_of kv.1) kv.2) c) by (apply Ho; exact Es).
    assert (Hrun : forall items, match field c "run" with None => items = [] | Some n => exists l' its, n = YSeq l' its /\ Forall2 becomes its items end <->
        items = match field c "run" with Some n => run_of_node (value_of k) n | None => [] end).
    { intros items. destruct (field c "run") as [n|] eqn:E; [|reflexivity].
      apply last_Some_elem_of in E. apply elem_of_list_fmap in E as ([k' n'] & -> & Hkv). apply elem_of_list_filter in Hkv as [H1 H2]. cbn [fst snd] in *.
      rewrite Forall_forall in Hc. specialize (Hc _ H2). cbn [fst snd] in Hc. rewrite H1 in Hc. apply (task_run_key (value_of k)) in Hc.
      destruct (parse_run_items_spec Y (value_of k) n') as [R1 R2]. rewrite R1, <- R2. unfold run_of_node. split; [intros [_ H]; symmetry; exact H|]. intros ->. auto. }
    intros t'. split.
    - intros (? & ? & E0 & _ & Ht & Hi). injection E0 as <- <-. apply Hrun in Hi. rewrite Ht. f_equal. unfold body, set_t_line.
      cbn [t_name t_line t_deps_line t_source t_desc t_alias t_aliases t_vars t_env t_silent t_output t_dir t_when t_deps t_run]. rewrite Hi. reflexivity.
    - intros H. apply (inj Some) in H. subst t'. exists l, c. split; [reflexivity|]. split; [exact Hc|]. split; [reflexivity|]. apply Hrun. reflexivity.
  Qed.

  (** ** The tasks section *)
  Notation key kv := (value_of (fst kv)).
  Lemma tasks_loop_ok c lines tasks :
    (tasks_loop Y c lines tasks).1 = [] <->
      NoDup (map (fun kv => key kv) c) /\ Forall (fun kv => lines !! key kv = None) c /\ Forall (fun kv => is_Some (task_at kv)) c.
  Proof.
    revert lines tasks. induction c as [|[k v] r IH]; intros lines tasks; cbn [tasks_loop map].
    - split; [intros _; repeat constructor|reflexivity].
    - rewrite NoDup_cons, !Forall_cons. cbn [fst]. destruct (lines !! value_of k) as [o|] eqn:El.
      + destruct (tasks_loop Y r lines tasks) as [es ts]. cbn [fst]. split; [discriminate|]. intros (_ & [? _] & _). discriminate.
      + destruct (parse_task_spec k v) as [_ Hp]. destruct (parse_task Y (value_of k) v) as [es ot]. cbn [fst] in Hp.
        match goal with |- context [tasks_loop Y r ?a ?b] => specialize (IH a b); destruct (tasks_loop Y r a b) as [es' ts] end. cbn [fst] in *.
        rewrite app_nil, IH, Hp. split.
        * intros (H1 & H2 & H3 & H4). split; [split; [|exact H2]|split; [split; [reflexivity|]|split; assumption]].
          -- intros Hin. change (map _ r) with ((fun kv => value_of (fst kv)) <$> r) in Hin. apply elem_of_list_fmap in Hin as (kv & Hk & Hkv). rewrite Forall_forall in H3. specialize (H3 _ Hkv). rewrite <- Hk in H3.
             rewrite lookup_insert in H3. discriminate.
          -- eapply Forall_impl; [exact H3|]. intros kv H. cbn beta in H |- *. apply lookup_insert_None in H as [H _]. exact H.
        * intros ((H1 & H2) & (_ & H3) & (H4 & H5)). split; [exact H4|]. split; [exact H2|]. split; [|exact H5].
          apply Forall_forall. intros kv Hkv. rewrite Forall_forall in H3. apply lookup_insert_None. split; [auto|]. intros E. apply H1. rewrite E.
          change (map _ r) with ((fun kv => value_of (fst kv)) <$> r). apply elem_of_list_fmap. exists kv. auto.
  Qed.
  Definition named (x : str) (c : list (node * node)) : option (node * node) := last (filter (fun kv => value_of kv.1 = x) c).
  Lemma named_cons x k v c : named x ((k, v) :: c) = match named x c with Some kv => Some kv | None => if decide (value_of k = x) then Some (k, v) else None end.
  Proof.
    unfold named. rewrite filter_cons. cbn [fst]. destruct (decide (value_of k = x)) as [E|E].
    - rewrite last_cons. reflexivity.
    - destruct (last _); reflexivity.
  Qed.
  Lemma named_app x a b : named x (a ++ b) = match named x b with Some kv => Some kv | None => named x a end.
  Proof. unfold named. rewrite filter_app, last_app. reflexivity. Qed.
  Lemma tasks_loop_reads c lines tasks x : (tasks_loop Y c lines tasks).1 = [] ->
    (tasks_loop Y c lines tasks).2 !! x = match named x c with Some kv => task_at kv | None => tasks !! x end.
  Proof.
    revert lines tasks. induction c as [|[k v] r IH]; intros lines tasks; cbn [tasks_loop]; [reflexivity|].
    destruct (lines !! value_of k) as [o|] eqn:El.
    - destruct (tasks_loop Y r lines tasks) as [es ts]. discriminate.
    - destruct (parse_task_spec k v) as [_ Hp]. unfold task_at in Hp. cbn [fst snd] in Hp. rewrite named_cons.
      destruct (parse_task Y (value_of k) v) as [es ot] eqn:Ept. cbn [fst snd] in Hp.
      match goal with |- context [tasks_loop Y r ?a ?b] => specialize (IH a b); destruct (tasks_loop Y r a b) as [es' ts] end. cbn [fst snd] in *.
      rewrite app_nil. intros [H1 H2]. rewrite (IH H2). destruct (named x r); [reflexivity|]. apply Hp in H1 as [t Ht]. destruct ot as [t0|]; [|discriminate].
      destruct (decide (value_of k = x)) as [<-|Hne]; [rewrite lookup_insert; unfold task_at; cbn [fst snd]; rewrite Ept; reflexivity|]. rewrite lookup_insert_ne by exact Hne. reflexivity.
  Qed.

  (** ** Sections *)
  Lemma includes_loop_ok c incs : (includes_loop Y c incs).1 = [] <-> Forall (fun kv => is_Some (y_include Y kv.2)) c.
  Proof.
    revert incs. induction c as [|[k v] r IH]; intros incs; cbn [includes_loop]; [split; [constructor|reflexivity]|]. rewrite Forall_cons. cbn [snd].
    destruct (y_include Y v) as [p|].
    - rewrite IH. split; [intros H; split; [eauto|exact H]|tauto].
    - destruct (includes_loop Y r incs) as [es i]. cbn [fst]. split; [discriminate|]. intros [[? ?] _]. discriminate.
  Qed.
  Lemma includes_loop_reads c incs x : (includes_loop Y c incs).1 = [] ->
    (includes_loop Y c incs).2 !! x = match named x c with Some kv => y_include Y kv.2 | None => incs !! x end.
  Proof.
    revert incs. induction c as [|[k v] r IH]; intros incs; cbn [includes_loop]; [reflexivity|]. rewrite named_cons.
    destruct (y_include Y v) as [p|] eqn:E.
    - intros H. rewrite (IH _ H). destruct (named x r); [reflexivity|]. destruct (decide (value_of k = x)) as [<-|Hne]; [rewrite lookup_insert; cbn [snd]; congruence|].
      rewrite lookup_insert_ne by exact Hne. reflexivity.
    - destruct (includes_loop Y r incs) as [es i]. discriminate.
  Qed.

  Definition root_step (s : schema) (k v : node) : list derr * schema := root_key Y k v s.
  Lemma root_fields_loop c s : root_fields Y c s = loop root_step c s.
  Proof. revert s. induction c as [|[k v] r IH]; intros s; [reflexivity|]. cbn [root_fields loop]. unfold root_step at 1. destruct (root_key Y k v s). rewrite IH. reflexivity. Qed.

  Lemma section_map x v : one_of ["vars"; "env"] x -> section_ok Y x v <-> str_map_ok v.
  Proof. intros Hx. split; [intros H; exact (so_map _ _ _ H Hx)|]. intros H. constructor; intros; keys; exact H. Qed.
  Lemma section_bool x v : one_of ["silent"; "output"] x -> section_ok Y x v <-> bool_ok Y v.
  Proof. intros Hx. split; [intros H; exact (so_bool _ _ _ H Hx)|]. intros H. constructor; intros; keys; exact H. Qed.

  Lemma root_step_ok s k v : (root_step s k v).1 = [] <-> section_ok Y (value_of k) v.
  Proof.
    unfold root_step, root_key, parse_var_map, parse_env_map, parse_tasks, parse_includes. generalize (value_of k) as x. intros x.
    key_case. { rewrite section_map by one. destruct (parse_str_map_spec DVarsMap DVarsValue v (f_vars s)) as (H1 & _ & _). destruct (parse_str_map _ _ _ _) as [[es ok] m]. exact H1. }
    key_case. { rewrite section_map by one. destruct (parse_str_map_spec DEnvMap DEnvValue v (f_env s)) as (H1 & _ & _). destruct (parse_str_map _ _ _ _) as [[es ok] m]. exact H1. }
    key_case. { rewrite section_bool by one. destruct (parse_bool_spec Y v (f_silent s)) as (H1 & _ & _). destruct (parse_bool _ _ _) as [[es ok] m]. exact H1. }
    key_case. { rewrite section_bool by one. destruct (parse_bool_spec Y v (f_output s)) as (H1 & _ & _). destruct (parse_bool _ _ _) as [[es ok] m]. exact H1. }
    key_case. { assert (Ed : section_ok Y (lit "dir") v <-> scalar v).
      { split; [intros H; exact (so_dir _ _ _ H eq_refl)|]. intros H. constructor; intros; keys; exact H. }
      rewrite Ed. destruct v; cbn [fst snd scalar]; split; intros H; try discriminate; try reflexivity; try exact I; destruct H. }
    key_case. { split.
      - destruct v as [l t v|l c|l c|l a t]; try discriminate. pose proof (tasks_loop_ok c ∅ (f_tasks s)) as Ht. destruct (tasks_loop Y c ∅ (f_tasks s)) as [es ts]. cbn [fst] in *.
        intros H. apply Ht in H as (H1 & _ & H3). constructor; intros; keys. exists l, c. split; [reflexivity|]. split; [exact H1|]. eapply Forall_impl; [exact H3|].
        intros [k' v'] [t Htt]. exists t. apply parse_task_spec. exact Htt.
      - intros H. destruct (so_tasks _ _ _ H eq_refl) as (l & c & -> & H1 & H2). pose proof (tasks_loop_ok c ∅ (f_tasks s)) as Ht. destruct (tasks_loop Y c ∅ (f_tasks s)) as [es ts]. cbn [fst] in *.
        apply Ht. split; [exact H1|]. split; [apply Forall_forall; intros; apply lookup_empty|]. eapply Forall_impl; [exact H2|].
        intros [k' v'] [t Htt]. exists t. apply parse_task_spec in Htt. exact Htt. }
    key_case. { split.
      - destruct v as [l t v|l c|l c|l a t]; try discriminate. pose proof (includes_loop_ok c (f_includes s)) as Ht. destruct (includes_loop Y c (f_includes s)) as [es ts]. cbn [fst] in *.
        intros H. apply Ht in H. constructor; intros; keys. exists l, c. auto.
      - intros H. destruct (so_includes _ _ _ H eq_refl) as (l & c & -> & H1). pose proof (includes_loop_ok c (f_includes s)) as Ht. destruct (includes_loop Y c (f_includes s)) as [es ts]. cbn [fst] in *.
        apply Ht. exact H1. }
    split; [intros _; constructor; intros; keys|reflexivity].
  Qed.

  Ltac root_untouched := let s1 := fresh "s1" in let a := fresh "a" in let v := fresh "v" in let Hne := fresh "Hne" in intros s1 a v Hne; unfold root_step, root_key, parse_var_map, parse_env_map, parse_tasks, parse_includes;
    repeat (match goal with |- context [if is ?x ?b then _ else _] => let E := fresh in destruct (is x b) eqn:E; [apply is_true in E; try (destruct (Hne E))|clear E] end);
    try reflexivity;
    try (match goal with
         | |- context [parse_bool ?a ?b ?c] => destruct (parse_bool a b c) as [[? ?] ?]
         | |- context [parse_str_map ?a ?b ?c ?d] => destruct (parse_str_map a b c d) as [[? ?] ?]
         | |- _ => destruct v; try reflexivity; match goal with
             | |- context [tasks_loop ?a ?b ?c ?d] => destruct (tasks_loop a b c d)
             | |- context [includes_loop ?a ?b ?c] => destruct (includes_loop a b c) end
         end); reflexivity.
  Ltac root_here := intros s1 a v E; unfold root_step, root_key, parse_var_map, parse_env_map, parse_tasks, parse_includes; rewrite E, !is_lit; cbn [String.eqb Ascii.eqb Bool.eqb].

  Lemma root_vars c s : (loop root_step c s).1 = [] -> f_vars (loop root_step c s).2 = match field c "vars" with Some v => Some (str_map v) | None => f_vars s end.
  Proof.
    apply (loop_last root_step f_vars "vars" (fun v => Some (str_map v))); [|root_untouched]. root_here.
    destruct (parse_str_map_spec DVarsMap DVarsValue v (f_vars s1)) as (_ & _ & H'). destruct (parse_str_map _ _ _ _) as [[es ok] m]. exact H'.
  Qed.
  Lemma root_env c s : (loop root_step c s).1 = [] -> f_env (loop root_step c s).2 = match field c "env" with Some v => Some (str_map v) | None => f_env s end.
  Proof.
    apply (loop_last root_step f_env "env" (fun v => Some (str_map v))); [|root_untouched]. root_here.
    destruct (parse_str_map_spec DEnvMap DEnvValue v (f_env s1)) as (_ & _ & H'). destruct (parse_str_map _ _ _ _) as [[es ok] m]. exact H'.
  Qed.
  Lemma root_silent c s : (loop root_step c s).1 = [] -> f_silent (loop root_step c s).2 = match field c "silent" with Some v => y_bool Y v | None => f_silent s end.
  Proof.
    apply (loop_last root_step f_silent "silent" (y_bool Y)); [|root_untouched]. root_here.
    destruct (parse_bool_spec Y v (f_silent s1)) as (_ & _ & H'). destruct (parse_bool _ _ _) as [[es ok] m]. exact H'.
  Qed.
  Lemma root_output c s : (loop root_step c s).1 = [] -> f_output (loop root_step c s).2 = match field c "output" with Some v => y_bool Y v | None => f_output s end.
  Proof.
    apply (loop_last root_step f_output "output" (y_bool Y)); [|root_untouched]. root_here.
    destruct (parse_bool_spec Y v (f_output s1)) as (_ & _ & H'). destruct (parse_bool _ _ _) as [[es ok] m]. exact H'.
  Qed.
  Lemma root_dir c s : (loop root_step c s).1 = [] -> f_dir (loop root_step c s).2 = match field c "dir" with Some v => value_of v | None => f_dir s end.
  Proof. apply (loop_last root_step f_dir "dir" value_of); [|root_untouched]. root_here. destruct v; reflexivity || discriminate. Qed.

  Definition content (v : node) : list (node * node) := match v with YMap _ es => es | _ => [] end.
  Lemma entries_cons k v c x : entries ((k, v) :: c) x = if decide (value_of k = lit x) then content v ++ entries c x else entries c x.
  Proof. unfold entries, under. rewrite filter_cons. cbn [fst]. destruct (decide (value_of k = lit x)); reflexivity. Qed.

  Lemma root_tasks c s x : (loop root_step c s).1 = [] ->
    f_tasks (loop root_step c s).2 !! x = match named x (entries c "tasks") with Some kv => task_at kv | None => f_tasks s !! x end.
  Proof.
    revert s. induction c as [|[k v] r IH]; intros s; [reflexivity|]. rewrite loop_cons. cbn [fst snd]. rewrite app_nil. intros [H1 H2]. rewrite (IH _ H2).
    rewrite entries_cons. destruct (decide (value_of k = lit "tasks")) as [E|E].
    - rewrite named_app. destruct (named x (entries r "tasks")); [reflexivity|]. revert H1. unfold root_step, root_key. rewrite E, !is_lit. cbn [String.eqb Ascii.eqb Bool.eqb].
      unfold parse_tasks. destruct v as [l t v|l c|l c|l a t]; try discriminate. cbn [content]. pose proof (tasks_loop_reads c ∅ (f_tasks s) x) as Ht.
      destruct (tasks_loop Y c ∅ (f_tasks s)) as [es ts]. cbn [fst snd] in *. exact Ht.
    - destruct (named x (entries r "tasks")); [reflexivity|].
      assert (G : forall s1 a v, value_of a <> lit "tasks" -> f_tasks (root_step s1 a v).2 = f_tasks s1) by root_untouched. rewrite (G _ _ _ E). reflexivity.
  Qed.
  Lemma root_includes c s x : (loop root_step c s).1 = [] ->
    f_includes (loop root_step c s).2 !! x = match named x (entries c "includes") with Some kv => y_include Y kv.2 | None => f_includes s !! x end.
  Proof.
    revert s. induction c as [|[k v] r IH]; intros s; [reflexivity|]. rewrite loop_cons. cbn [fst snd]. rewrite app_nil. intros [H1 H2]. rewrite (IH _ H2).
    rewrite entries_cons. destruct (decide (value_of k = lit "includes")) as [E|E].
    - rewrite named_app. destruct (named x (entries r "includes")); [reflexivity|]. revert H1. unfold root_step, root_key. rewrite E, !is_lit. cbn [String.eqb Ascii.eqb Bool.eqb].
      unfold parse_includes. destruct v as [l t v|l c|l c|l a t]; try discriminate. cbn [content]. pose proof (includes_loop_reads c (f_includes s) x) as Ht.
      destruct (includes_loop Y c (f_includes s)) as [es ts]. cbn [fst snd] in *. exact Ht.
    - destruct (named x (entries r "includes")); [reflexivity|].
      assert (G : forall s1 a v, value_of a <> lit "includes" -> f_includes (root_step s1 a v).2 = f_includes s1) by root_untouched. rewrite (G _ _ _ E). reflexivity.
  Qed.

  Lemma schema_ext (a b : schema) : f_vars a = f_vars b -> f_env a = f_env b -> f_silent a = f_silent b -> f_output a = f_output b -> f_dir a = f_dir b ->
    f_includes a = f_includes b -> f_tasks a = f_tasks b -> a = b.
  Proof. destruct a, b. simpl. intros. subst. reflexivity. Qed.
  Lemma field_named c x : field_at c x = snd <$> named x c.
  Proof. unfold field_at, under, named. rewrite fmap_last. reflexivity. Qed.

  (** A document is accepted exactly when it means something, and as what it means. *)
  Theorem unmarshal_node_spec n s : unmarshal_node Y n = Ok s <-> means Y n s.
  Proof.
    unfold unmarshal_node, means. destruct n as [l t v|l c|l c|l a t].
    1, 2, 4: (split; [discriminate|intros (? & ? & ? & _); discriminate]).
    rewrite root_fields_loop. pose proof (loop_ok root_step (fun k v => section_ok Y (value_of k) v) c no_schema root_step_ok) as Ho.
    assert (R : (loop root_step c no_schema).1 = [] -> forall s, s = (loop root_step c no_schema).2 <->
      f_vars s = Some (smap_get (map_of c "vars")) /\ f_env s = Some (smap_get (map_of c "env")) /\
      f_silent s = bool_of Y c "silent" /\ f_output s = bool_of Y c "output" /\ f_dir s = text c "dir" /\
      (forall x, f_includes s !! x = field_at (entries c "includes") x ≫= y_include Y) /\
      (forall x t, f_tasks s !! x = Some t <->
         exists k v, last (filter (fun kv => value_of kv.1 = x) (entries c "tasks")) = Some (k, v) /\ task_means Y k v t)).
    { intros H s'.
      assert (F : f_vars (loop root_step c no_schema).2 = Some (smap_get (map_of c "vars")) /\ f_env (loop root_step c no_schema).2 = Some (smap_get (map_of c "env")) /\
        f_silent (loop root_step c no_schema).2 = bool_of Y c "silent" /\ f_output (loop root_step c no_schema).2 = bool_of Y c "output" /\ f_dir (loop root_step c no_schema).2 = text c "dir" /\
        (forall x, f_includes (loop root_step c no_schema).2 !! x = field_at (entries c "includes") x ≫= y_include Y) /\
        (forall x t, f_tasks (loop root_step c no_schema).2 !! x = Some t <->
         exists k v, last (filter (fun kv => value_of kv.1 = x) (entries c "tasks")) = Some (k, v) /\ task_means Y k v t)).
      { rewrite (root_vars _ _ H), (root_env _ _ H), (root_silent _ _ H), (root_output _ _ H), (root_dir _ _ H). unfold map_of, bool_of, text.
        split; [destruct (field c "vars"); reflexivity|]. split; [destruct (field c "env"); reflexivity|]. split; [destruct (field c "silent"); reflexivity|].
        split; [destruct (field c "output"); reflexivity|]. split; [reflexivity|]. split.
        - intros x. rewrite (root_includes _ _ x H), field_named. destruct (named x (entries c "includes")); reflexivity.
        - intros x t. rewrite (root_tasks _ _ x H). fold (named x (entries c "tasks")). destruct (named x (entries c "tasks")) as [[k v]|].
          + split; [intros Ht; exists k, v; split; [reflexivity|]; apply parse_task_spec; exact Ht|]. intros (? & ? & [= <- <-] & Ht). apply parse_task_spec in Ht. exact Ht.
          + split; [|intros (? & ? & ? & _); discriminate]. simpl. rewrite lookup_empty. discriminate. }
      split; [intros ->; exact F|]. destruct F as (F1 & F2 & F3 & F4 & F5 & F6 & F7). intros (G1 & G2 & G3 & G4 & G5 & G6 & G7). apply schema_ext; try congruence.
      - apply map_eq. intros x. rewrite G6, F6. reflexivity.
      - apply map_eq. intros x. apply option_eq. intros t. rewrite G7, F7. reflexivity. }
    destruct (loop root_step c no_schema) as [es s']. cbn [fst snd] in *. destruct es as [|e es].
    - split.
      + intros E. injection E as ->. exists l, c. split; [reflexivity|]. split; [apply Ho; reflexivity|]. apply R; reflexivity.
      + intros (? & ? & [= <- <-] & _ & H). apply R in H; [|reflexivity]. congruence.
    - split; [discriminate|]. intros (? & ? & [= <- <-] & H & _). apply Ho in H. discriminate.
  Qed.

  (** A rejected document has at least one error. *)
  Lemma unmarshal_node_errors n es : unmarshal_node Y n = Err (EInvalid es) -> es <> [].
  Proof.
    unfold unmarshal_node. destruct n; try (intros [= <-]; discriminate). destruct (root_fields Y content0 no_schema) as [[|e es'] s]; [discriminate|]. intros [= <-]. discriminate.
  Qed.
End File.
