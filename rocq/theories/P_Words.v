(** C65, the other way round: the schema has all the words bab has, and all the names
    its documentation allows. *)
From Verif Require Import Base Types_Model Path_Model Path_Proof Include_Model Doc_Model Doc_Spec Doc_Proof Doc_Item Doc_Tree Doc_File Doc_Example Schema_Model Schema_Proof P_Schema.

(** A document with one task of one item. *)
Definition one_item (c : list (node * node)) : node :=
  mp 1 [kv 1 "tasks" (mp 2 [kv 2 "a" (mp 3 [kv 3 "run" (seq 4 [mp 4 c])])])].
Definition word (s : str) : node := YScalar 5 [] s.
Definition decoded_well (n : node) : Prop := exists s, unmarshal_node Y0 n = Ok s.
Definition on_platforms (ps : list str) : list (node * node) := [kv 4 "cmd" (sc 4 "make"); kv 5 "platforms" (seq 5 (map word ps))].
Definition at_level (s : str) : list (node * node) := [kv 4 "log" (sc 4 "hello"); kv 5 "level" (word s)].
Definition in_mode (s : str) : list (node * node) := [kv 4 "parallel" (seq 4 [mp 4 [kv 4 "cmd" (sc 4 "make")]]); kv 5 "mode" (word s)].
Definition of_type (s : str) (options : bool) : list (node * node) :=
  [kv 4 "prompt" (sc 4 "x"); kv 5 "type" (word s); kv 6 "message" (sc 6 "Which?")] ++ if options then [kv 7 "options" (seq 7 [sc 7 "b"])] else [].

Lemma item_becomes c : decoded_well (one_item c) -> exists it, becomes Y0 (mp 4 c) it.
Proof.
  intros [s H]. apply unmarshal_node_spec in H as (l & c' & [= <- <-] & HS & _). apply Forall_cons in HS as [HS _].
  destruct (so_tasks _ _ _ HS eq_refl) as (l1 & es & [= <- <-] & _ & HT). apply Forall_cons in HT as [(t & l2 & c2 & [= <- <-] & HE & _) _].
  apply Forall_cons in HE as [HE _]. destruct (to_run _ _ _ HE eq_refl) as (l3 & its & [= <- <-] & HI). apply Forall_cons in HI as [HI _]. exact HI.
Qed.
Lemma item_only c l c' : run_entry (one_item c) (YMap l c') -> l = 4 /\ c' = c.
Proof.
  intros (l0 & c0 & l1 & ts & k & l2 & tc & l3 & its & [= <- <-] & Ht & Hin & Hr & Hm).
  cbv [field field_at under kv] in Ht. rewrite filter_cons, decide_True in Ht by reflexivity. cbn in Ht. injection Ht as <- <-.
  apply elem_of_list_singleton in Hin as [= -> -> ->]. cbv [field field_at under kv] in Hr. rewrite filter_cons, decide_True in Hr by reflexivity. cbn in Hr. injection Hr as <- <-.
  apply elem_of_list_singleton in Hm as [= -> ->]. auto.
Qed.
Lemma words_decoded c : no_alias (one_item c) = true -> (has c "prompt" -> consistent (fun s => y_regexp Y0 s = true) (spelled Y0 4 c)) ->
  valid s_babfile (to_json (one_item c)) = true -> decoded_well (one_item c).
Proof.
  intros Ha Hc Hv. apply (C65_schema_valid_decoded _ _ _ _ (toy_agrees (fun _ => YSyntax)) (to_json_shows False _ Ha) Hv).
  intros l c' Hr Hh. apply item_only in Hr as [-> ->]. exact (Hc Hh).
Qed.
Lemma words_alone ps : forallb no_alias (map word ps) = true.
Proof. induction ps; [reflexivity|assumption]. Qed.

Lemma words_read ps : mapM plain (map word ps) = Some ps.
Proof. induction ps as [|p ps IH]; [reflexivity|]. cbn. cbn in IH. rewrite IH. reflexivity. Qed.

(** Every word bab knows is a word of the schema, and the other way round. *)
Theorem C65_same_levels s : s <> [] -> (decoded_well (one_item (at_level s)) <-> valid s_babfile (to_json (one_item (at_level s))) = true).
Proof.
  intros Hs. split; [|apply words_decoded; [vm_compute; reflexivity|intros (x & Hx & E); exfalso; repeat (apply elem_of_cons in Hx as [->|Hx]; [discriminate E|]); apply elem_of_nil in Hx as []]].
  intros H. apply item_becomes in H as [it H]. inversion H as [l c [Hp [_ K]]|l c [Hp [_ K]]|l c _ Hl|l c p [Hp [_ K]]|l c l' its items _ Hp]; subst.
  - exfalso. assert (E : "log"%string = "cmd"%string) by (apply K; [vm_compute; auto|vm_compute; discriminate]). discriminate E.
  - exfalso. assert (E : "log"%string = "task"%string) by (apply K; [vm_compute; auto|vm_compute; discriminate]). discriminate E.
  - assert (El : or_else (text (at_level s) "level") "info" = s) by (change (text (at_level s) "level") with s; destruct s; [contradiction|reflexivity]).
    rewrite El in Hl. unfold one_of in Hl. cbn [map] in Hl. repeat (apply elem_of_cons in Hl as [->|Hl]; [vm_compute; reflexivity|]). apply elem_of_nil in Hl as [].
  - exfalso. assert (E : "log"%string = "prompt"%string) by (apply K; [vm_compute; auto 6|vm_compute; discriminate]). discriminate E.
  - exfalso. vm_compute in Hp. discriminate Hp.
Qed.
Theorem C65_same_modes s : s <> [] -> (decoded_well (one_item (in_mode s)) <-> valid s_babfile (to_json (one_item (in_mode s))) = true).
Proof.
  intros Hs. split; [|apply words_decoded; [vm_compute; reflexivity|intros (x & Hx & E); exfalso; repeat (apply elem_of_cons in Hx as [->|Hx]; [discriminate E|]); apply elem_of_nil in Hx as []]].
  intros H. apply item_becomes in H as [it H].
  assert (Hh : has (in_mode s) "parallel") by (eexists; split; [apply elem_of_list_here|reflexivity]).
  inversion H as [l c [Hp _]|l c [Hp _]|l c [Hp _]|l c p [Hp _]|l c l' its items HF]; subst; [contradiction..|].
  apply Forall_cons in HF as [_ HF]. apply Forall_cons in HF as [HF _]. destruct (bo_mode _ _ _ HF eq_refl) as [_ Hl]. unfold one_of in Hl. cbn in Hl.
  repeat (apply elem_of_cons in Hl as [->|Hl]; [vm_compute; reflexivity|]). apply elem_of_nil in Hl as [].
Qed.
Theorem C65_same_platforms ps : NoDup ps -> (decoded_well (one_item (on_platforms ps)) <-> valid s_babfile (to_json (one_item (on_platforms ps))) = true).
Proof.
  intros Hn. split; [|apply words_decoded; [cbn -[bool_decide]; rewrite words_alone; vm_compute; reflexivity|intros (x & Hx & E); exfalso; repeat (apply elem_of_cons in Hx as [->|Hx]; [discriminate E|]); apply elem_of_nil in Hx as []]].
  intros H. apply item_becomes in H as [it H].
  assert (HF : Forall (fun kv => entry_ok Y0 (value_of kv.1) kv.2) (on_platforms ps)).
  { inversion H as [l c [_ [HF _]]|l c [_ [HF _]]|l c [_ [HF _]]|l c p [_ [HF _]]|l c l' its items _ Hp]; subst; try exact HF. vm_compute in Hp. discriminate Hp. }
  apply Forall_cons in HF as [_ HF]. apply Forall_cons in HF as [HF _]. destruct (eo_platforms _ _ _ HF eq_refl) as (qs & Eq & Hq).
  assert (qs = ps) as ->.
  { change (mapM plain (map word ps) = Some qs) in Eq. rewrite words_read in Eq. congruence. }
  assert (Hlen : length ps <= 3).
  { change 3 with (length (map lit ["linux"; "darwin"; "windows"]%string)). apply submseteq_length, NoDup_submseteq; [exact Hn|]. intros p Hp. rewrite Forall_forall in Hq. exact (Hq p Hp). }
  clear -Hq Hn Hlen. unfold one_of in Hq. cbn [map] in Hq.
  destruct ps as [|p1 [|p2 [|p3 [|]]]]; [vm_compute; reflexivity|..|cbn in Hlen; lia];
    repeat (apply Forall_cons in Hq as [?Hp Hq]);
    repeat match goal with H : _ ∈ _ :: _ |- _ => apply elem_of_cons in H as [-> | H] | H : _ ∈ [] |- _ => apply elem_of_nil in H as [] end;
    first [vm_compute; reflexivity | exfalso; apply (bool_decide_eq_true_2 _) in Hn; vm_compute in Hn; discriminate Hn].
Qed.
(** For the type of a question: with the options it asks for, or without. *)
Theorem C65_same_types s : (decoded_well (one_item (of_type s false)) \/ decoded_well (one_item (of_type s true)) <-> valid s_babfile (to_json (one_item (of_type s false))) = true).
Proof.
  split.
  - assert (G : forall b, decoded_well (one_item (of_type s b)) -> one_of ["confirm"; "input"; "select"; "multiselect"; "password"; "number"] s).
    { intros b H. apply item_becomes in H as [it H].
      assert (E : forall k, (forall k', In k' ["cmd"; "task"; "log"; "prompt"]%string -> (text (of_type s b) k' <> [] <-> k' = k)) -> k = "prompt"%string).
      { intros k K. symmetry. apply K; [vm_compute; auto 6|]. destruct b; vm_compute; discriminate. }
      inversion H as [l c [_ [_ K]]|l c [_ [_ K]]|l c [_ [_ K]] _|l c p _ Ep Hp|l c l' its items _ Hp]; subst; try (apply E in K; discriminate K).
      - destruct Hp as [_ Ht _]. cbn [p_type] in Ht. change (text (of_type s b) "type") with (match field (of_type s b) "type" with Some v => value_of v | None => [] end) in Ht.
        assert (Ef : field (of_type s b) "type" = Some (word s)) by (destruct b; reflexivity). rewrite Ef in Ht. exact Ht.
      - exfalso. destruct b; vm_compute in Hp; discriminate Hp. }
    intros [H|H]; apply G in H; unfold one_of in H; cbn [map] in H; repeat (apply elem_of_cons in H as [->|H]; [vm_compute; reflexivity|]); apply elem_of_nil in H as [].
  - intros Hv. destruct (decide (s = lit "select" \/ s = lit "multiselect")) as [[-> | ->]|Hs]; [right; vm_compute; eexists; reflexivity..|]. left. revert Hv.
    apply words_decoded; [vm_compute; reflexivity|]. intros _.
    assert (Et : p_type (spelled Y0 4 (of_type s false)) = s) by reflexivity.
    constructor; try (intros H; exfalso; apply H; reflexivity).
    + rewrite Et. split; [intros H; exfalso; apply H; reflexivity|contradiction].
    + intros _ H. exfalso. apply H. reflexivity.
    + constructor.
    + intros lo hi H. vm_compute in H. discriminate H.
    + intros [x H]. vm_compute in H. discriminate H.
    + intros _ H. exfalso. apply H. reflexivity.
Qed.

(** Names of tasks: one or more parts, a colon between any two; a part is made of letters,
    digits, [_] and [-]. *)
Inductive name_part : str -> Prop :=
| np_one c : letter c \/ 48 <= code c <= 57 \/ c = "-"%char -> name_part [c]
| np_more c w : letter c \/ 48 <= code c <= 57 \/ c = "-"%char -> name_part w -> name_part (c :: w).
Inductive task_name : str -> Prop :=
| tn_part w : name_part w -> task_name w
| tn_more w s : name_part w -> task_name s -> task_name (w ++ ":"%char :: s).

Lemma name_char_spec c : name_char c = true <-> letter c \/ 48 <= code c <= 57 \/ c = "-"%char.
Proof.
  assert (D : code c = 45 <-> c = "-"%char).
  { split; [|intros ->; reflexivity]. unfold code. intros E. rewrite <- (ascii_nat_embedding c), E. reflexivity. }
  unfold name_char, word_char, word_start, letter. rewrite !orb_true_iff, !andb_true_iff, !Nat.leb_le, !Nat.eqb_eq, D. tauto.
Qed.
Definition part_ok (w : str) : bool := match w with [] => false | _ => forallb name_char w end.
Lemma part_spec w : part_ok w = true <-> name_part w.
Proof.
  split.
  - destruct w as [|c w]; [discriminate|]. cbn [part_ok]. revert c. induction w as [|d w IH]; intros c H; cbn [forallb] in H; apply andb_prop in H as [H1 H2]; apply name_char_spec in H1.
    + apply np_one. exact H1.
    + apply np_more; [exact H1|]. apply IH. exact H2.
  - induction 1 as [c H|c w H _ IH]; apply name_char_spec in H; cbn; rewrite H; [reflexivity|]. destruct w; [discriminate IH|exact IH].
Qed.
Lemma part_no_colon w : name_part w -> ":"%char ∉ w.
Proof.
  assert (N : forall c, name_char c = true -> ":"%char <> c) by (intros c H <-; discriminate H).
  induction 1 as [c H|c w H _ IH]; apply name_char_spec in H; apply N in H; [apply not_elem_of_cons; split; [exact H|apply not_elem_of_nil]|apply not_elem_of_cons; auto].
Qed.
Lemma split_plain w : ":"%char ∉ w -> split_on ":"%char w = [w].
Proof. induction w as [|c w IH]; [reflexivity|]. intros H. apply not_elem_of_cons in H as [Hc H]. cbn [split_on]. rewrite IH by exact H. rewrite decide_False by congruence. reflexivity. Qed.
Lemma split_more w s : ":"%char ∉ w -> split_on ":"%char (w ++ ":"%char :: s) = w :: split_on ":"%char s.
Proof. induction w as [|c w IH]; intros H; [reflexivity|]. apply not_elem_of_cons in H as [Hc H]. cbn [split_on app]. rewrite IH by exact H. rewrite decide_False by congruence. reflexivity. Qed.
Lemma task_pattern_spec s : task_pattern s = true <-> task_name s.
Proof.
  unfold task_pattern. change (fun w => match w with [] => false | _ => forallb name_char w end) with part_ok. split.
  - remember (length s) as n eqn:En. revert s En. induction (lt_wf n) as [n _ IH]. intros s ->.
    destruct (decide (":"%char ∈ s)) as [Hin|Hin].
    + apply elem_of_list_split_l in Hin as (w & r & -> & Hw). rewrite split_more by exact Hw. cbn [forallb]. intros H. apply andb_prop in H as [H1 H2]. apply part_spec in H1.
      apply tn_more; [exact H1|]. apply (IH (length r)); [rewrite app_length; cbn; lia|reflexivity|exact H2].
    + rewrite split_plain by exact Hin. cbn [forallb]. intros H. apply andb_prop in H as [H1 _]. apply tn_part, part_spec, H1.
  - induction 1 as [w H|w s H _ IH].
    + rewrite split_plain by (apply part_no_colon; exact H). cbn [forallb]. apply part_spec in H. rewrite H. reflexivity.
    + rewrite split_more by (apply part_no_colon; exact H). cbn [forallb]. apply part_spec in H. rewrite H. exact IH.
Qed.

(** A task may be called, depend on, be known as and be run by exactly such a name. *)
Definition called (x : str) : json := JObj [(lit "tasks", JObj [(x, JObj [(lit "desc", JStr (lit "d"))])])].
Definition related (k : string) (x : str) : json := JObj [(lit "tasks", JObj [(lit "a", JObj [(lit k, if decide (k = "alias"%string) then JStr x else JArr [JStr x])])])].
Definition runs (x : str) : json := JObj [(lit "tasks", JObj [(lit "a", JObj [(lit "run", JArr [JObj [(lit "task", JStr x)]])])])].
Definition included_as (x : str) : json := JObj [(lit "includes", JObj [(x, JObj [(lit "babfile", JStr (lit "lib/babfile.yml"))])])].
Theorem C65_names x : Forall (fun j => valid s_babfile j = true <-> task_name x) [called x; related "deps" x; related "alias" x; related "aliases" x; runs x; included_as x].
Proof.
  assert (G : forall j, valid s_babfile j = task_pattern x -> valid s_babfile j = true <-> task_name x) by (intros j ->; apply task_pattern_spec).
  repeat (apply Forall_cons; split); [..|apply Forall_nil; exact I].
  all: apply G; destruct x as [|c x]; [vm_compute; reflexivity|]; lazy -[task_pattern]; change (task_pattern ["a"%char]) with true; match goal with |- _ = task_pattern ?y => destruct (task_pattern y); reflexivity end.
Qed.
Print Assumptions C65_same_levels.
Print Assumptions C65_same_modes.
Print Assumptions C65_same_platforms.
Print Assumptions C65_same_types.
Print Assumptions C65_names.

Example C65_words_met : decoded_well (one_item (at_level (lit "warn"))) /\ ~ decoded_well (one_item (at_level (lit "loud"))) /\
  decoded_well (one_item (in_mode (lit "tabs"))) /\ ~ decoded_well (one_item (in_mode (lit "windows"))) /\
  decoded_well (one_item (on_platforms (map lit ["windows"; "linux"]%string))) /\ ~ decoded_well (one_item (on_platforms [lit "plan9"])) /\
  decoded_well (one_item (of_type (lit "number") false)) /\ decoded_well (one_item (of_type (lit "select") true)) /\
  task_name (lit "lib:web-app:b_2") /\ ~ task_name (lit "lib::a").
Proof.
  assert (Y : forall n, match unmarshal_node Y0 n with Ok _ => true | Err _ => false end = true -> decoded_well n).
  { intros n H. unfold decoded_well. destruct (unmarshal_node Y0 n); [eauto|discriminate H]. }
  assert (N : forall n, match unmarshal_node Y0 n with Ok _ => true | Err _ => false end = false -> ~ decoded_well n).
  { intros n H [s E]. rewrite E in H. discriminate H. }
  repeat split; try (apply Y; vm_compute; reflexivity); try (apply N; vm_compute; reflexivity).
  - apply task_pattern_spec. vm_compute. reflexivity.
  - intros H. apply task_pattern_spec in H. vm_compute in H. discriminate H.
Qed.
