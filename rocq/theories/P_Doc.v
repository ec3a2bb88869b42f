(** Theorems about decoding a Babfile: C54-C57. *)
From Verif Require Import Base Types_Model Cond_Model Interp_Model Include_Model Include_Spec Valid_Model Include_Proof P_Include Run_Model
  Interp_Escape Doc_Model Doc_Spec Doc_Proof Doc_Item Doc_Tree Doc_File.

(** The whole step of unmarshal.go is exactly the specification. *)
Theorem C56_accepted_iff_meaningful Y data s :
  unmarshal Y data = Ok s <-> exists n, y_parse Y data = YDoc n /\ means Y n s.
Proof.
  unfold unmarshal. destruct (y_parse Y data) as [| |n].
  1, 2: (split; [discriminate|intros (? & ? & _); discriminate]).
  rewrite unmarshal_node_spec. split; [eauto|]. intros (? & [= <-] & H). exact H.
Qed.

(** A well-formed run item. *)
Notation known_platforms l := (Forall (one_of ["linux"; "darwin"; "windows"]) l).
Inductive well_formed (re : str -> Prop) : run_item -> Prop :=
| wf_cmd c : c_cmd c <> [] -> known_platforms (c_platforms c) -> well_formed re (RCmd c)
| wf_task t : r_task t <> [] -> known_platforms (r_platforms t) -> well_formed re (RTask t)
| wf_log l : l_log l <> [] -> one_of ["debug"; "info"; "warn"; "error"] (l_level l) -> known_platforms (l_platforms l) -> well_formed re (RLog l)
| wf_prompt p : prompt_ok re p -> known_platforms (p_platforms p) -> well_formed re (RPrompt p)
| wf_par o items : items <> [] -> length (q_labels o) = length items -> (0 <= q_limit o)%Z ->
    one_of ["interleaved"; "grouped"; "tabs"] (q_mode o) -> known_platforms (q_platforms o) ->
    Forall simple items -> Forall (well_formed re) items -> well_formed re (RPar o items).

(** An item of a list, at any depth. *)
Inductive occurs (it : run_item) : list run_item -> Prop :=
| occurs_here l : it ∈ l -> occurs it l
| occurs_in o items l : RPar o items ∈ l -> occurs it items -> occurs it l.

Lemma wf_occurs re it l : Forall (well_formed re) l -> occurs it l -> well_formed re it.
Proof.
  intros Hw H. induction H as [l H|o items l H _ IH]; [rewrite Forall_forall in Hw; auto|]. apply IH.
  rewrite Forall_forall in Hw. specialize (Hw _ H). inversion Hw; subst; assumption.
Qed.

Section Decode.
  Context (Y : yaml).
  Notation re := (fun s => y_regexp Y s = true).

  Lemma field_in c k v : field c k = Some v -> exists n, (n, v) ∈ c /\ value_of n = lit k.
  Proof.
    unfold field, field_at, under. rewrite fmap_last. destruct (last _) as [[n w]|] eqn:E; [|discriminate]. intros [= <-].
    apply last_Some_elem_of in E. apply elem_of_list_filter in E as [E1 E2]. eauto.
  Qed.

  Lemma kind_platforms c k : the_kind Y c k -> known_platforms (strs_of Y c "platforms").
  Proof.
    intros (_ & H & _). unfold strs_of. destruct (field c "platforms") as [v|] eqn:E; [|constructor].
    apply field_in in E as (n & E1 & E2). rewrite Forall_forall in H. destruct (H _ E1) as [_ _ _ Hp _ _]. destruct (Hp E2) as (ps & Hs & Hps).
    cbn in *. rewrite Hs. exact Hps.
  Qed.

  Lemma becomes_wf n it : becomes Y n it -> well_formed re it.
  Proof.
    revert n it. fix IH 3. intros n it [l c H|l c H|l c H Hl|l c p H -> Hp|l c l' its items Hk Hf Hne H2 Hs].
    - pose proof (kind_platforms _ _ H). destruct H as (_ & _ & H). constructor; [apply (H "cmd"%string); simpl; tauto|assumption].
    - pose proof (kind_platforms _ _ H). destruct H as (_ & _ & H). constructor; [apply (H "task"%string); simpl; tauto|assumption].
    - pose proof (kind_platforms _ _ H). destruct H as (_ & _ & H). constructor; [apply (H "log"%string); simpl; tauto|assumption|assumption].
    - pose proof (kind_platforms _ _ H). constructor; assumption.
    - rewrite Forall_forall in Hk. constructor; cbn [q_labels q_limit q_mode q_platforms].
      + destruct H2; [contradiction|discriminate].
      + rewrite map_length. eapply Forall2_length; exact H2.
      + unfold int_of. destruct (field c "limit") as [v|] eqn:E; [|simpl; lia]. apply field_in in E as (m & E1 & E2).
        destruct (bo_limit _ _ _ (Hk _ E1) E2) as (z & Hz & ?). cbn in *. rewrite Hz. exact H.
      + unfold text. destruct (field c "mode") as [v|] eqn:E; [|apply one_of_cons; auto]. apply field_in in E as (m & E1 & E2).
        destruct (bo_mode _ _ _ (Hk _ E1) E2) as (_ & Hm). cbn in Hm. destruct (value_of v) as [|a s] eqn:Ev; [apply one_of_cons; auto|exact Hm].
      + unfold strs_of. destruct (field c "platforms") as [v|] eqn:E; [|constructor]. apply field_in in E as (m & E1 & E2).
        destruct (bo_platforms _ _ _ (Hk _ E1) E2) as (ps & Hps & ?). cbn in *. rewrite Hps. assumption.
      + exact Hs.
      + clear -IH H2. induction H2 as [|x y xs ys Hxy _ IHl]; constructor; [exact (IH _ _ Hxy)|exact IHl].
  Qed.

  Lemma means_wf n s x t : means Y n s -> f_tasks s !! x = Some t -> Forall (well_formed re) (t_run t).
  Proof.
    intros (l & c & _ & _ & _ & _ & _ & _ & _ & _ & Ht) H. apply Ht in H as (k & v & _ & l' & c' & _ & _ & _ & H).
    destruct (field c' "run") as [m|]; [|rewrite H; constructor]. destruct H as (l'' & its & _ & H).
    induction H; constructor; eauto using becomes_wf.
  Qed.
End Decode.

Lemma one_of_prefix nss n : n <> [] -> qualify nss n <> [].
Proof. destruct nss as [|a nss]; [auto|]. rewrite qualify_cons. unfold prefixed. destruct a; discriminate. Qed.

Lemma moved_simple nss i j : moved nss i j -> simple i -> simple j.
Proof. destruct 1; simpl; auto. Qed.
Lemma moved_wf re nss i j : moved nss i j -> well_formed re i -> well_formed re j.
Proof.
  revert i j. fix IH 3. intros i j [c|l|p|ln n s o ps w|ln lb md lim col s s' o o' ps w items items' H2 Hso] Hw.
  1-3: assumption.
  - inversion Hw; subst. constructor; cbn in *; [apply one_of_prefix|]; assumption.
  - inversion Hw as [| | | |o0 items0 Hne Hl Hlim Hm Hp Hs Hi]; subst. cbn in *. constructor; cbn; try assumption.
    + destruct H2; [contradiction|discriminate].
    + rewrite Hl. eapply Forall2_length; exact H2.
    + clear -H2 Hs. induction H2; inversion Hs; subst; constructor; eauto using moved_simple.
    + clear -IH H2 Hi. induction H2 as [|x y xs ys Hxy _ IHl]; inversion Hi; subst; constructor; [eapply IH; eassumption|auto].
Qed.

(** What is in the decoded files is in some document. *)
Lemma decoded_in Y files f bf : decoded Y files !! f = Some (Some bf) -> exists data n, files !! f = Some data /\ y_parse Y data = YDoc n /\ means Y n bf.
Proof.
  unfold decoded. rewrite lookup_fmap. destruct (files !! f) as [data|]; [|discriminate]. cbn.
  destruct (unmarshal Y data) as [s|] eqn:E; [|discriminate]. intros [= <-]. apply C56_accepted_iff_meaningful in E as (n & ? & ?). eauto.
Qed.

(** C56. Whatever [Parse] returns, with any includes, every run item at any depth is well-formed. *)
Theorem C56_items_well_formed Y files orc grow vorc cwd path r x t it : oracle_ok orc -> vorc_ok vorc ->
  parse (decoded Y files) orc grow vorc cwd path = Ok r ->
  pr_tasks r !! x = Some t -> occurs it (t_run t) -> well_formed (fun s => y_regexp Y s = true) it.
Proof.
  intros Ho Hv H Hx. destruct (C12_tasks_are_exactly_the_tree _ _ _ _ _ _ _ Ho Hv H) as [Hex _].
  destruct (proj1 (Hex x) (ex_intro _ t Hx)) as (nss & via & f & m & t0 & Hor & ->).
  destruct (C14_references_are_namespaced _ _ _ _ _ _ _ _ _ _ _ _ Ho Hv H Hor) as (t' & Ht & [_ _ _ _ _ _ Hr] & _).
  rewrite Hx in Ht. injection Ht as <-. apply wf_occurs. destruct Hor as (bf & Hl & Hm). apply leads_end in Hl.
  apply decoded_in in Hl as (data & n & _ & _ & Hn). pose proof (means_wf _ _ _ _ _ Hn Hm) as Hw.
  clear -Hr Hw. induction Hr; inversion Hw; subst; constructor; eauto using moved_wf.
Qed.

(** C56, the converse for one run item: exactly the nodes that stand for an item
    are accepted, as that item. *)
Theorem C56_item_iff Y name i n it : becomes Y n it <-> (parse_run_item Y name i n).2 = Some it.
Proof. apply (parse_run_item_spec Y name i n). Qed.

(** No node stands for two items: exactly one kind, one reading. *)
Theorem C56_one_reading Y n it it' : becomes Y n it -> becomes Y n it' -> it = it'.
Proof. rewrite !(C56_item_iff Y [] 0). congruence. Qed.

(** C54. *)
Theorem C54_prompts_well_formed Y files orc grow vorc cwd path r x t p : oracle_ok orc -> vorc_ok vorc ->
  parse (decoded Y files) orc grow vorc cwd path = Ok r ->
  pr_tasks r !! x = Some t -> occurs (RPrompt p) (t_run t) -> prompt_ok (fun s => y_regexp Y s = true) p.
Proof. intros Ho Hv H Hx Hp. pose proof (C56_items_well_formed _ _ _ _ _ _ _ _ _ _ _ Ho Hv H Hx Hp) as Hw. inversion Hw; subst. assumption. Qed.

Lemma interpolate_list_map getenv vars l l' : interpolate_list getenv vars l = Ok l' -> Forall2 (fun s v => interpolate getenv vars s = Ok v) l l'.
Proof.
  revert l'. induction l as [|s l IH]; intros l'; cbn [interpolate_list]; [intros [= <-]; constructor|].
  destruct (interpolate getenv vars s) eqn:E; [|discriminate]. destruct (interpolate_list getenv vars l); [|discriminate]. intros [= <-]. constructor; auto.
Qed.
Lemma interpolated_in getenv vars l l' s v : Forall2 (fun s v => interpolate getenv vars s = Ok v) l l' -> s ∈ l -> interpolate getenv vars s = Ok v -> v ∈ l'.
Proof.
  induction 1 as [|a b l l' Hab _ IH]; intros Hs Hv; [inversion Hs|]. apply elem_of_cons in Hs as [->|Hs]; [|apply elem_of_list_further; auto].
  rewrite Hab in Hv. injection Hv as ->. apply elem_of_list_here.
Qed.

Lemma digit_no_dollar s : (exists z, integer s z) -> "$"%char ∉ s.
Proof.
  assert (D : forall s z, decimal s z -> Forall (fun c => 48 <= code c <= 57) s).
  { induction 1 as [c Hc|s' z c _ IH Hc]; [constructor; [exact Hc|constructor]|]. apply Forall_app. split; [exact IH|]. constructor; [exact Hc|constructor]. }
  assert (N : forall s z, decimal s z -> "$"%char ∉ s).
  { intros s' z H Hin. apply D in H. rewrite Forall_forall in H. specialize (H _ Hin). vm_compute in H. lia. }
  intros [z [s' z' H _|s' z' H _|s' z' H _]]; [eapply N; eassumption| |];
    (intros Hin; apply elem_of_cons in Hin as [E|Hin]; [discriminate|eapply N; eassumption]).
Qed.

Lemma escape_plain s : "$"%char ∉ s -> escape s = s.
Proof.
  induction s as [|c s IH]; intros H; [reflexivity|]. apply not_elem_of_cons in H as [Hc H]. rewrite escape_chr; [rewrite IH by exact H; reflexivity|].
  destruct (strip_prefix (lit "${{") (c :: s)) as [r|] eqn:E; [|reflexivity]. apply strip_prefix_Some in E. injection E as -> _. contradiction.
Qed.
Lemma interpolate_integer getenv vars s z : integer s z -> interpolate getenv vars s = Ok s.
Proof.
  intros H. rewrite <- (escape_plain s) at 1 by (apply digit_no_dollar; eauto). apply interpolate_escape. intros Hin.
  assert (D : forall s z, decimal s z -> Forall (fun c => 48 <= code c <= 57) s).
  { clear. induction 1 as [c Hc|s' z c _ IH Hc]; [constructor; [exact Hc|constructor]|]. apply Forall_app. split; [exact IH|]. constructor; [exact Hc|constructor]. }
  assert (N : forall s z, decimal s z -> "000"%char ∉ s).
  { clear Hin. intros s' z' H' Hin. apply D in H'. rewrite Forall_forall in H'. specialize (H' _ Hin). vm_compute in H'. lia. }
  destruct H as [s' z' H _|s' z' H _|s' z' H _]; [eapply N; eassumption| |];
    (apply elem_of_cons in Hin as [E|Hin]; [discriminate|eapply N; eassumption]).
Qed.

(** C54, the second half. Interpolation may change the texts of a prompt but the
    default of a select stays among the options, so do the defaults of a
    multiselect, and a number keeps its default; options stay options, position by position. *)
Theorem C54_survives_interpolation re getenv vars p q : prompt_ok re p -> interpolate_prompt getenv vars p = Ok q ->
  p_type q = p_type p /\ p_prompt q = p_prompt p /\
  (p_options q <> [] <-> one_of ["select"; "multiselect"] (p_type q)) /\
  (p_type q = lit "select" -> p_default p <> [] -> p_default q ∈ p_options q) /\
  (p_defaults q <> [] -> p_type q = lit "multiselect") /\ Forall (fun d => d ∈ p_options q) (p_defaults q) /\
  p_min q = p_min p /\ p_max q = p_max p /\ p_validate q = p_validate p /\
  (p_type q = lit "number" -> p_default q = p_default p).
Proof.
  intros [Hname Htype Hmsg Hopt Hdef Hdefs Hin Hr Hval Hc Hn]. unfold interpolate_prompt.
  destruct (interpolate getenv vars (p_message p)) as [msg|]; [|discriminate].
  destruct (match p_default p with [] => Ok [] | _ => _ end) as [def|] eqn:Ed; [|discriminate].
  destruct (match p_placeholder p with [] => Ok [] | _ => _ end) as [ph|]; [|discriminate].
  destruct (interpolate_list getenv vars (p_options p)) as [opts|] eqn:Eo; [|discriminate].
  destruct (interpolate_list getenv vars (p_defaults p)) as [defs|] eqn:Es; [|discriminate]. intros [= <-].
  apply interpolate_list_map in Eo, Es. cbn [p_type p_prompt p_options p_default p_defaults p_min p_max p_validate].
  assert (No : opts <> [] <-> p_options p <> []) by (destruct Eo; split; congruence).
  assert (Nd : defs <> [] -> p_defaults p <> []) by (destruct Es; congruence).
  split; [reflexivity|]. split; [reflexivity|]. split; [rewrite No; exact Hopt|]. split; [|split; [auto|split; [|split; [reflexivity|split; [reflexivity|split; [reflexivity|]]]]]].
  - intros Ht Hd. specialize (Hdef Ht Hd). eapply interpolated_in; [exact Eo|exact Hdef|]. destruct (p_default p); [contradiction|exact Ed].
  - clear -Hin Es Eo. induction Es as [|d d' ds ds' Hd _ IH]; inversion Hin; subst; constructor; eauto using interpolated_in.
  - intros Ht. destruct (p_default p) as [|a d] eqn:E; [congruence|]. destruct (Hn Ht ltac:(discriminate)) as [z Hz]. rewrite (interpolate_integer _ _ _ _ Hz) in Ed. congruence.
Qed.

(** No mapping inside the node, not looking through aliases, has a key twice. *)
Inductive distinct : node -> Prop :=
| distinct_scalar l t v : distinct (YScalar l t v)
| distinct_alias l a t : distinct (YAlias l a t)
| distinct_seq l its : Forall distinct its -> distinct (YSeq l its)
| distinct_map l c : NoDup (map (fun kv => value_of kv.1) c) -> Forall (fun kv => distinct kv.2) c -> distinct (YMap l c).

(** An entry of a run list became the item, and so did each entry of each of its parallel lists. *)
Inductive kept (Y : yaml) : node -> run_item -> Prop :=
| kept_plain n it : becomes Y n it -> (forall o items, it <> RPar o items) -> kept Y n it
| kept_par l c o items : becomes Y (YMap l c) (RPar o items) ->
    Forall (fun v => exists l' its, v = YSeq l' its /\ Forall2 (kept Y) its items) (under c (lit "parallel")) ->
    kept Y (YMap l c) (RPar o items).

Lemma distinct_under c x v : NoDup (map (fun kv => value_of kv.1) c) -> v ∈ under c x -> under c x = [v].
Proof.
  unfold under. induction c as [|[k w] c IH]; cbn [map fst]; intros Hd; [inversion 1|]. apply NoDup_cons in Hd as [Hk Hd]. rewrite filter_cons. cbn [fst].
  destruct (decide (value_of k = x)) as [E|E]; [|apply IH; exact Hd]. cbn [fmap list_fmap snd].
  assert (N : (filter (fun kv => value_of kv.1 = x) c).*2 = []).
  { destruct (filter (fun kv => value_of kv.1 = x) c) as [|[a b] r] eqn:Ef; [reflexivity|]. destruct Hk. apply elem_of_list_fmap. exists (a, b).
    assert (Ha : (a, b) ∈ filter (fun kv => value_of kv.1 = x) c) by (rewrite Ef; apply elem_of_list_here).
    apply elem_of_list_filter in Ha as [Ha1 Ha2]. cbn in *. split; [congruence|exact Ha2]. }
  rewrite N. intros Hv. apply elem_of_list_singleton in Hv as ->. reflexivity.
Qed.
Lemma distinct_field c k v : NoDup (map (fun kv => value_of kv.1) c) -> v ∈ under c (lit k) -> field c k = Some v.
Proof. intros Hd Hv. unfold field, field_at. rewrite (distinct_under _ _ _ Hd Hv). reflexivity. Qed.
Lemma under_in c x v : v ∈ under c x <-> exists k, (k, v) ∈ c /\ value_of k = x.
Proof.
  unfold under. rewrite elem_of_list_fmap. split.
  - intros ([k w] & -> & H). apply elem_of_list_filter in H as [H1 H2]. eauto.
  - intros (k & H1 & H2). exists (k, v). split; [reflexivity|]. apply elem_of_list_filter. auto.
Qed.

Lemma becomes_kept Y n it : distinct n -> becomes Y n it -> kept Y n it.
Proof.
  revert n it. fix IH 4. intros n it Hd Hb. destruct Hb as [l c H|l c H|l c H Hl|l c p H Ep Hp|l c l' its items Hk Hf Hne H2 Hs] eqn:Eb.
  1-4: (apply kept_plain; [try (constructor; assumption); eapply B_prompt; eassumption|discriminate]).
  apply kept_par; [eapply B_par; eassumption|]. inversion Hd as [| | |? ? Hn Hall]; subst. apply Forall_forall. intros v Hv.
  rewrite (distinct_field _ _ _ Hn Hv) in Hf. injection Hf as ->. exists l', its. split; [reflexivity|]. apply under_in in Hv as (k & Hv & _).
  rewrite Forall_forall in Hall. specialize (Hall _ Hv). cbn in Hall. inversion Hall as [| |? ? Hits|]; subst. clear -IH H2 Hits.
  induction H2 as [|x y xs ys Hxy _ IHl]; [constructor|]. inversion Hits as [|? ? Hx Hxs]; subst. constructor; [exact (IH _ _ Hx Hxy)|exact (IHl Hxs)].
Qed.

Lemma entries_distinct l c k v : distinct (YMap l c) -> (k, v) ∈ entries c "tasks" ->
  (forall l' es, (exists n, (n, YMap l' es) ∈ c /\ value_of n = lit "tasks") -> NoDup (map (fun kv => value_of kv.1) es) /\ Forall (fun kv => distinct kv.2) es) /\
  exists n l' es, (n, YMap l' es) ∈ c /\ value_of n = lit "tasks" /\ entries c "tasks" = es /\ (k, v) ∈ es.
Proof.
  intros Hd Hin. inversion Hd as [| | |? ? Hn Hall]; subst. split.
  - intros l' es (n & H & _). rewrite Forall_forall in Hall. specialize (Hall _ H). cbn in Hall. inversion Hall; subst. auto.
  - unfold entries in *. destruct (under c (lit "tasks")) as [|w r] eqn:E; [inversion Hin|].
    assert (Hw : w ∈ under c (lit "tasks")) by (rewrite E; apply elem_of_list_here). pose proof (distinct_under _ _ _ Hn Hw) as Hu. rewrite E in Hu. injection Hu as ->.
    cbn [map concat] in *. rewrite app_nil_r in *. destruct w as [| |l' es|]; try (inversion Hin; fail). apply under_in in Hw as (n & Hw & Hv). exists n, l', es. auto.
Qed.
Lemma last_filter_distinct (es : list (node * node)) k v : NoDup (map (fun kv => value_of kv.1) es) -> (k, v) ∈ es ->
  last (filter (fun kv => value_of kv.1 = value_of k) es) = Some (k, v).
Proof.
  induction es as [|[a b] es IH]; cbn [map fst]; intros Hd Hin; [inversion Hin|]. apply NoDup_cons in Hd as [Ha Hd]. rewrite filter_cons. cbn [fst].
  apply elem_of_cons in Hin as [E|Hin].
  - injection E as -> ->. rewrite decide_True by reflexivity.
    destruct (filter (fun kv => value_of kv.1 = value_of a) es) as [|[x y] r] eqn:Ef; [reflexivity|]. destruct Ha. apply elem_of_list_fmap. exists (x, y).
    assert (Hx : (x, y) ∈ filter (fun kv => value_of kv.1 = value_of a) es) by (rewrite Ef; apply elem_of_list_here).
    apply elem_of_list_filter in Hx as [? ?]. cbn in *. split; [congruence|assumption].
  - specialize (IH Hd Hin). destruct (decide (value_of a = value_of k)) as [E|E]; [|exact IH].
    destruct Ha. rewrite E. apply elem_of_list_fmap. exists (k, v). auto.
Qed.

(** C55, for documents without repeated keys: each entry under tasks is a task,
    with one item for each entry of its run list, in order, and the same inside
    each parallel block; there are no other tasks. *)
Theorem C55_nothing_dropped_partial Y l c s : unmarshal_node Y (YMap l c) = Ok s -> distinct (YMap l c) ->
  (forall k v, (k, v) ∈ entries c "tasks" -> exists t, f_tasks s !! value_of k = Some t /\ task_means Y k v t /\
     forall tl tc, v = YMap tl tc ->
       (under tc (lit "run") = [] -> t_run t = []) /\
       (forall rv, rv ∈ under tc (lit "run") -> exists rl its, rv = YSeq rl its /\ Forall2 (kept Y) its (t_run t))) /\
  (forall x t, f_tasks s !! x = Some t -> exists k v, (k, v) ∈ entries c "tasks" /\ x = value_of k /\ task_means Y k v t).
Proof.
  intros H Hd. apply unmarshal_node_spec in H as (l0 & c0 & [= <- <-] & Hs & _ & _ & _ & _ & _ & _ & Ht). split.
  - intros k v Hin. destruct (entries_distinct _ _ _ _ Hd Hin) as (Hes & n & l' & es & Hn & Hv & He & Hin').
    destruct (Hes l' es ltac:(eauto)) as [Hnd Hall]. rewrite Forall_forall in Hs. destruct (so_tasks _ _ _ (Hs _ Hn) Hv) as (l1 & es1 & [= <- <-] & _ & Hm).
    rewrite Forall_forall in Hm. destruct (Hm _ Hin') as [t Hkt]. cbn [fst snd] in Hkt. exists t. split; [|split; [exact Hkt|]].
    + apply Ht. exists k, v. split; [|exact Hkt]. rewrite He. apply last_filter_distinct; assumption.
    + intros tl tc ->. destruct Hkt as (? & ? & [= <- <-] & _ & _ & Hr). rewrite Forall_forall in Hall. specialize (Hall _ Hin'). cbn in Hall.
      inversion Hall as [| | |? ? Hdt Hdv]; subst. split.
      * intros E. unfold field, field_at in Hr. rewrite E in Hr. exact Hr.
      * intros rv Hrv. rewrite (distinct_field _ _ _ Hdt Hrv) in Hr. destruct Hr as (rl & its & -> & Hr). exists rl, its. split; [reflexivity|].
        apply under_in in Hrv as (rk & Hrv & _). rewrite Forall_forall in Hdv. specialize (Hdv _ Hrv). cbn in Hdv. inversion Hdv as [| |? ? Hits|]; subst.
        clear -Hr Hits. induction Hr; [constructor|]. inversion Hits; subst. constructor; auto using becomes_kept.
  - intros x t Hx. apply Ht in Hx as (k & v & Hl & Hm). exists k, v. apply last_Some_elem_of in Hl. apply elem_of_list_filter in Hl as [<- Hl]. auto.
Qed.

(** C55 through includes: a task of a file that is reached through the namespaces [nss]
    is in the result under its qualified name, with one item for each entry of its run list. *)
Theorem C55_nothing_dropped_by_includes_partial Y files orc grow vorc cwd path r nss via f bf data l c k tl tc rk rl its :
  oracle_ok orc -> vorc_ok vorc -> parse (decoded Y files) orc grow vorc cwd path = Ok r ->
  leads (decoded Y files) (root_of cwd path) nss via f bf -> files !! f = Some data -> y_parse Y data = YDoc (YMap l c) -> distinct (YMap l c) ->
  (k, YMap tl tc) ∈ entries c "tasks" -> (rk, YSeq rl its) ∈ tc -> value_of rk = lit "run" ->
  exists t, pr_tasks r !! qualify nss (value_of k) = Some t /\
    Forall2 (fun n it' => exists it, kept Y n it /\ moved nss it it') its (t_run t).
Proof.
  intros Ho Hv H Hl Hf Hy Hd Hk Hr Hrk. pose proof (leads_end _ _ _ _ _ _ Hl) as Hbf. unfold decoded in Hbf. rewrite lookup_fmap, Hf in Hbf. cbn in Hbf.
  unfold unmarshal in Hbf. rewrite Hy in Hbf. destruct (unmarshal_node Y (YMap l c)) as [s|] eqn:E; [|discriminate]. injection Hbf as ->.
  destruct (C55_nothing_dropped_partial _ _ _ _ E Hd) as [H1 _]. destruct (H1 _ _ Hk) as (t0 & Ht0 & _ & Hrun). destruct (Hrun _ _ eq_refl) as [_ Hrun'].
  destruct (Hrun' (YSeq rl its)) as (? & ? & [= <- <-] & Hkept); [apply under_in; eauto|].
  assert (Hor : origin (decoded Y files) (root_of cwd path) nss via f (value_of k) t0) by (exists bf; auto).
  destruct (C14_references_are_namespaced _ _ _ _ _ _ _ _ _ _ _ _ Ho Hv H Hor) as (t & Ht & [_ _ _ _ _ _ Hm] & _).
  exists t. split; [exact Ht|]. clear -Hkept Hm. revert Hm. generalize (t_run t) as out. induction Hkept; intros out Hm; inversion Hm; subst; constructor; eauto.
Qed.

(** ** Cases. *)
From Verif Require Import Doc_Example.

(** A document with an alias key, a prompt and a parallel block. *)
Definition sample : list (node * node) :=
  [ kv 1 "vars" (mp 2 [kv 2 "region" (sc 2 "eu")])
  ; kv 3 "tasks" (mp 4
      [ kv 4 "deploy" (mp 5
          [ kv 5 "deps" (seq 5 [sc 5 "build"])
          ; kv 6 "run" (seq 7
              [ mp 7 [kv 7 "prompt" (sc 7 "where"); kv 8 "type" (sc 8 "select"); kv 9 "message" (sc 9 "Where to?");
                      kv 10 "options" (seq 10 [sc 10 "${{ region }}"; sc 10 "us"]); kv 11 "default" (sc 11 "${{ region }}")]
              ; mp 12 [kv 12 "parallel" (seq 13 [mp 13 [kv 13 "cmd" (sc 13 "a"); kv 14 "label" (sc 14 "first")]; mp 15 [kv 15 "task" (sc 15 "build")]]);
                       kv 16 "limit" (sc 16 "2")]])])
      ; kv 17 "build" (mp 18 [kv 18 "run" (seq 19 [mp 19 [kv 19 "log" (sc 19 "building")]])])])].
Definition where_prompt : prompt_run :=
  PromptRun 7 (lit "where") (lit "select") (lit "Where to?") [] (lit "${{ region }}") [] [lit "${{ region }}"; lit "us"] [] [] None None None [].
Definition deploy_run : list run_item :=
  [ RPrompt where_prompt
  ; RPar (ParOpts 12 [lit "first"; []] (lit "interleaved") 2 None None None [] [])
      [RCmd (CmdRun 13 (lit "a") [] None None None [] []); RTask (TaskRun 15 (lit "build") None None [] [])]].
Example sample_decodes : exists s t, unmarshal_node Y0 (mp 1 sample) = Ok s /\ f_tasks s !! lit "deploy" = Some t /\ t_run t = deploy_run.
Proof. eexists _, _. split; [vm_compute; reflexivity|]. split; [vm_compute; reflexivity|]. vm_compute. reflexivity. Qed.
Lemma distinct_sample : distinct (mp 1 sample).
Proof.
  assert (ND : forall l : list str, bool_decide (NoDup l) = true -> NoDup l) by (intros l H; apply bool_decide_eq_true in H; exact H).
  unfold mp, sample, kv, seq, sc. repeat first [apply distinct_map; [apply ND; vm_compute; reflexivity|]|apply distinct_seq|apply distinct_scalar|apply Forall_cons; split|apply Forall_nil; exact I]; cbn [fst snd].
Qed.
Example sample_kept : exists s t its, unmarshal_node Y0 (mp 1 sample) = Ok s /\ f_tasks s !! lit "deploy" = Some t /\
  length its = 2 /\ Forall2 (kept Y0) its (t_run t).
Proof.
  destruct (unmarshal_node Y0 (mp 1 sample)) as [s|] eqn:E; [|vm_compute in E; discriminate]. destruct (C55_nothing_dropped_partial _ _ _ _ E distinct_sample) as [H _].
  edestruct (H (sc 4 "deploy")) as (t & Ht & _ & Hr); [apply elem_of_list_here|]. edestruct (Hr 5) as [_ Hr']; [reflexivity|].
  edestruct Hr' as (rl & its & Ei & Hk); [apply under_in; exists (sc 6 "run"); split; [apply elem_of_list_further, elem_of_list_here|reflexivity]|].
  exists s, t, its. split; [reflexivity|]. split; [exact Ht|]. split; [injection Ei as _ <-; reflexivity|exact Hk].
Qed.

(** The prompt of the sample after interpolation. *)
Example sample_prompt_ok : prompt_ok (fun s => y_regexp Y0 s = true) where_prompt.
Proof.
  assert (Hb : becomes Y0 (mp 7 [kv 7 "prompt" (sc 7 "where"); kv 8 "type" (sc 8 "select"); kv 9 "message" (sc 9 "Where to?");
                      kv 10 "options" (seq 10 [sc 10 "${{ region }}"; sc 10 "us"]); kv 11 "default" (sc 11 "${{ region }}")]) (RPrompt where_prompt))
    by (apply (C56_item_iff Y0 [] 0); vm_compute; reflexivity).
  apply becomes_wf in Hb. inversion Hb; subst; assumption.
Qed.
Example sample_prompt_interpolated : exists q, interpolate_prompt (fun _ => []) {[lit "region" := lit "eu"]} where_prompt = Ok q /\
  p_default q = lit "eu" /\ p_options q = [lit "eu"; lit "us"].
Proof. eexists. split; [vm_compute; reflexivity|]. split; vm_compute; reflexivity. Qed.

(** Two files, one includes the other: the prompt of the included file in the result of [Parse]. *)
Definition outer : list (node * node) := [kv 1 "includes" (mp 2 [kv 2 "app" (mp 3 [kv 3 "babfile" (sc 3 "app.yml")])])].
Definition two_files : gmap str str := {[lit "/p/Babfile" := lit "a"; lit "/p/app.yml" := lit "b"]}.
Example two_files_prompt : exists r t, parse (decoded (Y2 (mp 1 outer) (mp 1 sample)) two_files) fwd (fun n => n) vfwd (lit "/p") (lit "Babfile") = Ok r /\
  pr_tasks r !! lit "app:deploy" = Some t /\ occurs (RPrompt where_prompt) (t_run t).
Proof. eexists _, _. split; [vm_compute; reflexivity|]. split; [vm_compute; reflexivity|]. apply occurs_here. apply elem_of_list_here. Qed.

(** The full claim of C55 is false: of two sections with the same name the later one
    counts for the tasks of the same name, of two run lists only the last counts, and of two parallel lists too. *)
Definition run1 (l : nat) (k v : string) : node := mp l [kv l k (sc l v)].
Theorem C55_repeated_run_list_dropped_refuted : exists Y l c s k tl tc rv t,
  unmarshal_node Y (YMap l c) = Ok s /\ (k, YMap tl tc) ∈ entries c "tasks" /\ rv ∈ under tc (lit "run") /\ f_tasks s !! value_of k = Some t /\
  ~ exists rl its, rv = YSeq rl its /\ Forall2 (kept Y) its (t_run t).
Proof.
  exists Y0, 1, [kv 1 "tasks" (mp 2 [kv 2 "ci" (mp 3 [kv 3 "run" (seq 4 [run1 4 "cmd" "test"; run1 5 "cmd" "lint"]); kv 6 "run" (seq 7 [run1 7 "log" "done"])])])].
  eexists _, (sc 2 "ci"), 3, _, (seq 4 [run1 4 "cmd" "test"; run1 5 "cmd" "lint"]). eexists. split; [vm_compute; reflexivity|].
  split; [apply elem_of_list_here|]. split; [apply elem_of_list_here|]. split; [vm_compute; reflexivity|].
  intros (rl & its & [= <- <-] & H). apply Forall2_length in H. discriminate.
Qed.
Theorem C55_repeated_section_dropped_refuted : exists Y l c s k v,
  unmarshal_node Y (YMap l c) = Ok s /\ (k, v) ∈ entries c "tasks" /\ ~ exists t, f_tasks s !! value_of k = Some t /\ task_means Y k v t.
Proof.
  exists Y0, 1, [kv 1 "tasks" (mp 2 [kv 2 "ci" (mp 3 [kv 3 "desc" (sc 3 "old")])]); kv 4 "tasks" (mp 5 [kv 5 "ci" (mp 6 [kv 6 "desc" (sc 6 "new")])])].
  eexists _, (sc 2 "ci"), (mp 3 [kv 3 "desc" (sc 3 "old")]). split; [vm_compute; reflexivity|]. split; [apply elem_of_list_here|].
  intros (t & Ht & Hm). vm_compute in Ht. injection Ht as <-. destruct Hm as (? & ? & [= <- <-] & _ & E & _). vm_compute in E. discriminate.
Qed.
Theorem C55_repeated_parallel_list_dropped_refuted : exists Y n it, becomes Y n it /\ ~ kept Y n it.
Proof.
  exists Y0, (mp 1 [kv 1 "parallel" (seq 2 [run1 2 "cmd" "a"; run1 3 "cmd" "b"]); kv 4 "parallel" (seq 5 [run1 5 "cmd" "c"])]).
  eexists. split; [apply (C56_item_iff Y0 [] 0); vm_compute; reflexivity|].
  intros H. inversion H as [? ? _ Hno|? ? ? ? _ Hall]; subst; [eapply Hno; reflexivity|].
  rewrite Forall_forall in Hall. destruct (Hall (seq 2 [run1 2 "cmd" "a"; run1 3 "cmd" "b"])) as (? & ? & [= <- <-] & H2); [apply elem_of_list_here|]. apply Forall2_length in H2. discriminate.
Qed.

Print Assumptions C54_prompts_well_formed.
Print Assumptions C54_survives_interpolation.
Print Assumptions C55_nothing_dropped_partial.
Print Assumptions C55_nothing_dropped_by_includes_partial.
Print Assumptions C55_repeated_run_list_dropped_refuted.
Print Assumptions C55_repeated_section_dropped_refuted.
Print Assumptions C55_repeated_parallel_list_dropped_refuted.
Print Assumptions C56_accepted_iff_meaningful.
Print Assumptions C56_items_well_formed.
Print Assumptions C56_item_iff.
Print Assumptions C56_one_reading.
