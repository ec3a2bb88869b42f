(** Parallel blocks, tasks and whole documents: what is accepted, and as what. *)
From Verif Require Import Base Types_Model Include_Model Doc_Model Doc_Spec Doc_Proof Doc_Item.

(** Induction over YAML trees. *)
Section node_ind.
  Context (P : node -> Prop) (Hs : forall l t v, P (YScalar l t v)) (Hq : forall l c, Forall P c -> P (YSeq l c))
    (Hm : forall l c, Forall (fun kv => P kv.1 /\ P kv.2) c -> P (YMap l c)) (Ha : forall l a t, P t -> P (YAlias l a t)).
  Fixpoint node_ind' (n : node) : P n :=
    match n with
    | YScalar l t v => Hs l t v
    | YSeq l c => Hq l c ((fix go (c : list node) : Forall P c :=
        match c with [] => Forall_nil_2 P | x :: r => Forall_cons_2 P x r (node_ind' x) (go r) end) c)
    | YMap l c => Hm l c ((fix go (c : list (node * node)) : Forall (fun kv => P kv.1 /\ P kv.2) c :=
        match c with
        | [] => Forall_nil_2 _
        | (k, v) :: r => Forall_cons_2 (fun kv => P kv.1 /\ P kv.2) (k, v) r (conj (node_ind' k) (node_ind' v)) (go r)
        end) c)
    | YAlias l a t => Ha l a t (node_ind' t)
    end.
End node_ind.

Ltac keys := repeat match goal with
  | H : one_of _ _ |- _ => progress rewrite ?one_of_cons, ?one_of_nil in H
  | H : _ \/ _ |- _ => destruct H
  | H : False |- _ => destruct H
  | H : lit ?a = lit ?b |- _ => first [discriminate (lit_inj a b H) | clear H]
  | H : ?x = lit ?b, H' : ?x <> lit ?b |- _ => destruct (H' H)
  | H : ?x = lit ?b |- _ => is_var x; subst x
  end.
Ltac key_case := match goal with |- context [is ?s ?k] =>
  let E := fresh "E" in destruct (is s k) eqn:E; [apply is_true in E; subst s|apply is_false in E] end.
Ltac one := unfold one_of; simpl; rewrite ?elem_of_cons; auto 10.

Section Tree.
  Context (Y : yaml).
  Notation becomes := (becomes Y).
  Notation exact_item := (exact_item Y).

  (** ** Parallel blocks *)
  Lemma mode_spec s : valid_mode s = true <-> one_of ["interleaved"; "grouped"; "tabs"] s.
  Proof. unfold valid_mode, one_of. apply bool_decide_eq_true. Qed.

  Lemma block_bool x v : one_of ["color"; "silent"; "output"] x -> block_entry_ok Y x v <-> bool_ok Y v.
  Proof.
    intros Hx. split; [intros H; exact (bo_bool _ _ _ H Hx)|]. intros H. constructor; [|intros; keys; exact H..].
    rewrite !one_of_cons, one_of_nil in *. tauto.
  Qed.

  Lemma parallel_key_ok wrap k v qf :
    ((parallel_key Y wrap k v qf).1.1 = [] <-> block_entry_ok Y (value_of k) v) /\
    ((parallel_key Y wrap k v qf).1.2 = true <-> (parallel_key Y wrap k v qf).1.1 = []).
  Proof.
    unfold parallel_key. generalize (value_of k) as x. intros x.
    key_case.
    { destruct v; cbn [fst snd]; split; try (split; discriminate); try (split; reflexivity).
      all: split; [discriminate || (intros _; constructor; [one|intros; keys..]; eauto)|try reflexivity].
      all: intros H; destruct (bo_items _ _ _ H eq_refl) as (? & ? & ?); discriminate. }
    key_case.
    { destruct v as [l t m|l m|l m|l m t].
      1:{ destruct (valid_mode m) eqn:Em; cbn [fst snd].
        - split; [|split; reflexivity]. split; [intros _|reflexivity]. apply mode_spec in Em. pose proof (conj I Em) as G. clear Em. constructor; [one|intros; keys..]. exact G.
        - split; [|split; discriminate]. split; [discriminate|]. intros H. destruct (bo_mode _ _ _ H eq_refl) as [_ Hm]. apply mode_spec in Hm. cbn [value_of] in Hm. congruence. }
      all: cbn [fst snd]; split; [|split; discriminate]; split; [discriminate|]; intros H; destruct (bo_mode _ _ _ H eq_refl) as [[] _]. }
    key_case.
    { destruct (y_int Y v) as [z|] eqn:Ez; [destruct (z <? 0)%Z eqn:El|]; cbn [fst snd].
      - split; [|split; discriminate]. split; [discriminate|]. intros H. destruct (bo_limit _ _ _ H eq_refl) as (z' & Hz & Hp). rewrite Ez in Hz. injection Hz as <-.
        apply Z.ltb_lt in El. lia.
      - split; [|split; reflexivity]. split; [intros _|reflexivity]. apply Z.ltb_ge in El. constructor; [one|intros; keys..]. exists z. auto.
      - split; [|split; discriminate]. split; [discriminate|]. intros H. destruct (bo_limit _ _ _ H eq_refl) as (z' & Hz & Hp). congruence. }
    key_case.
    { rewrite block_bool by one. destruct (parse_bool_spec Y v (qf_color qf)) as (H1 & H2 & _). destruct (parse_bool Y v (qf_color qf)) as [[es ok] m]. exact (conj H1 H2). }
    key_case.
    { rewrite block_bool by one. destruct (parse_bool_spec Y v (qf_silent qf)) as (H1 & H2 & _). destruct (parse_bool Y v (qf_silent qf)) as [[es ok] m]. exact (conj H1 H2). }
    key_case.
    { rewrite block_bool by one. destruct (parse_bool_spec Y v (qf_output qf)) as (H1 & H2 & _). destruct (parse_bool Y v (qf_output qf)) as [[es ok] m]. exact (conj H1 H2). }
    key_case.
    { destruct (parse_platforms_spec Y (line_of k) wrap v) as (H1 & H2 & _). destruct (parse_platforms Y (line_of k) wrap v) as [[es ok] m]. cbn [fst snd] in *.
      split; [|exact H2]. rewrite H1. split; [|intros H; exact (bo_platforms _ _ _ H eq_refl)]. intros H. constructor; [one|intros; keys..]. exact H. }
    key_case.
    { cbn [fst snd]. split; [|split; reflexivity]. split; [intros _|reflexivity]. constructor; [one|intros; keys..]. }
    cbn [fst snd]. split; [|split; discriminate]. split; [discriminate|]. intros H. pose proof (bo_key _ _ _ H) as Hk. keys.
  Qed.

  (** The loop with its flag as a [loop]. *)
  Definition block_step (wrap : ierror -> derror) (s : bool * qfields) (k v : node) : list derr * (bool * qfields) :=
    let '(es, ok, qf') := parallel_key Y wrap k v s.2 in (es, (if ok then s.1 else true, qf')).
  Lemma parallel_fields_loop wrap c bad qf :
    parallel_fields Y wrap c bad qf = ((loop (block_step wrap) c (bad, qf)).1, (loop (block_step wrap) c (bad, qf)).2.1, (loop (block_step wrap) c (bad, qf)).2.2).
  Proof.
    revert bad qf. induction c as [|[k v] r IH]; intros bad qf; [reflexivity|]. rewrite loop_cons. cbn [parallel_fields].
    assert (E : block_step wrap (bad, qf) k v = ((parallel_key Y wrap k v qf).1.1, (if (parallel_key Y wrap k v qf).1.2 then bad else true, (parallel_key Y wrap k v qf).2)))
      by (unfold block_step; cbn [fst snd]; destruct (parallel_key Y wrap k v qf) as [[es ok] qf']; reflexivity).
    rewrite E. cbn [fst snd]. destruct (parallel_key Y wrap k v qf) as [[es ok] qf']. cbn [fst snd]. rewrite IH. reflexivity.
  Qed.
  Lemma block_step_eq wrap s k v : block_step wrap s k v =
    ((parallel_key Y wrap k v s.2).1.1, (if (parallel_key Y wrap k v s.2).1.2 then s.1 else true, (parallel_key Y wrap k v s.2).2)).
  Proof. unfold block_step. destruct (parallel_key Y wrap k v s.2) as [[es ok] qf']. reflexivity. Qed.

  Lemma block_ok wrap c s : (loop (block_step wrap) c s).1 = [] <-> Forall (fun kv => block_entry_ok Y (value_of kv.1) kv.2) c.
  Proof. apply (loop_ok (block_step wrap) (fun k v => block_entry_ok Y (value_of k) v)). intros s' k v. rewrite block_step_eq. cbn [fst]. apply parallel_key_ok. Qed.
  (** [hasErrors] says whether there are errors. *)
  Lemma block_flag wrap c s : (loop (block_step wrap) c s).2.1 = false <-> (loop (block_step wrap) c s).1 = [] /\ s.1 = false.
  Proof.
    revert s. induction c as [|[k v] r IH]; intros s; [simpl; tauto|]. rewrite loop_cons. cbn [fst snd]. rewrite IH, app_nil. rewrite block_step_eq. cbn [fst snd].
    destruct (parallel_key_ok wrap k v s.2) as [_ H]. destruct (parallel_key Y wrap k v s.2).1.2; [|split; [intros [_ ?]; discriminate|]].
    - rewrite <- H. tauto.
    - intros [[H1 _] _]. apply H in H1. discriminate.
  Qed.

  Ltac untouched := intros s1 a v H; rewrite block_step_eq; cbn [fst snd]; unfold parallel_key;
    repeat (match goal with |- context [if is ?x ?b then _ else _] => let E := fresh in destruct (is x b) eqn:E; [apply is_true in E; try (destruct (H E))|clear E] end);
    try reflexivity;
    try (match goal with
         | |- context [parse_bool ?a ?b ?c] => destruct (parse_bool a b c) as [[? []] ?]
         | |- context [parse_platforms ?a ?b ?c ?d] => destruct (parse_platforms a b c d) as [[? []] ?]
         | |- context [y_int ?a ?b] => destruct (y_int a b); [case_match|]
         | v : node |- _ => destruct v; repeat case_match
         end); reflexivity.
  Ltac here := intros s1 a v E; rewrite block_step_eq; cbn [fst snd]; unfold parallel_key; rewrite E, !is_lit; cbn [String.eqb Ascii.eqb Bool.eqb].
  Definition seq_of (v : node) : option (nat * list node) := match v with YSeq l its => Some (l, its) | _ => None end.
  Lemma blk_items wrap c s : (loop (block_step wrap) c s).1 = [] ->
    qf_items (loop (block_step wrap) c s).2.2 = match field c "parallel" with Some v => seq_of v | None => qf_items s.2 end.
  Proof. apply (loop_last (block_step wrap) (fun s => qf_items s.2) "parallel" seq_of); [|untouched]. here. destruct v; discriminate || reflexivity. Qed.
  Lemma blk_mode wrap c s : (loop (block_step wrap) c s).1 = [] ->
    qf_mode (loop (block_step wrap) c s).2.2 = match field c "mode" with Some v => value_of v | None => qf_mode s.2 end.
  Proof. apply (loop_last (block_step wrap) (fun s => qf_mode s.2) "mode" value_of); [|untouched]. here. destruct v; try discriminate. destruct (valid_mode value); discriminate || reflexivity. Qed.
  Lemma blk_limit wrap c s : (loop (block_step wrap) c s).1 = [] ->
    qf_limit (loop (block_step wrap) c s).2.2 = match field c "limit" with Some v => default 0%Z (y_int Y v) | None => qf_limit s.2 end.
  Proof.
    apply (loop_last (block_step wrap) (fun s => qf_limit s.2) "limit" (fun v => default 0%Z (y_int Y v))); [|untouched]. here.
    destruct (y_int Y v) as [z|]; [|discriminate]. destruct (z <? 0)%Z; discriminate || reflexivity.
  Qed.
  Lemma blk_color wrap c s : (loop (block_step wrap) c s).1 = [] ->
    qf_color (loop (block_step wrap) c s).2.2 = match field c "color" with Some v => y_bool Y v | None => qf_color s.2 end.
  Proof.
    apply (loop_last (block_step wrap) (fun s => qf_color s.2) "color" (y_bool Y)); [|untouched]. here.
    destruct (parse_bool_spec Y v (qf_color s1.2)) as (_ & _ & H'). destruct (parse_bool _ _ _) as [[es ok] m]. exact H'.
  Qed.
  Lemma blk_silent wrap c s : (loop (block_step wrap) c s).1 = [] ->
    qf_silent (loop (block_step wrap) c s).2.2 = match field c "silent" with Some v => y_bool Y v | None => qf_silent s.2 end.
  Proof.
    apply (loop_last (block_step wrap) (fun s => qf_silent s.2) "silent" (y_bool Y)); [|untouched]. here.
    destruct (parse_bool_spec Y v (qf_silent s1.2)) as (_ & _ & H'). destruct (parse_bool _ _ _) as [[es ok] m]. exact H'.
  Qed.
  Lemma blk_output wrap c s : (loop (block_step wrap) c s).1 = [] ->
    qf_output (loop (block_step wrap) c s).2.2 = match field c "output" with Some v => y_bool Y v | None => qf_output s.2 end.
  Proof.
    apply (loop_last (block_step wrap) (fun s => qf_output s.2) "output" (y_bool Y)); [|untouched]. here.
    destruct (parse_bool_spec Y v (qf_output s1.2)) as (_ & _ & H'). destruct (parse_bool _ _ _) as [[es ok] m]. exact H'.
  Qed.
  Lemma blk_platforms wrap c s : (loop (block_step wrap) c s).1 = [] ->
    qf_platforms (loop (block_step wrap) c s).2.2 = match field c "platforms" with Some v => default [] (y_strs Y v) | None => qf_platforms s.2 end.
  Proof.
    apply (loop_last (block_step wrap) (fun s => qf_platforms s.2) "platforms" (fun v => default [] (y_strs Y v))); [|untouched]. here.
    destruct (parse_platforms_spec Y (line_of a) wrap v) as (_ & _ & H'). destruct (parse_platforms _ _ _ _) as [[es ok] m]. cbn [fst snd] in *.
    intros E0. rewrite <- (H' E0). reflexivity.
  Qed.
  Lemma blk_when wrap c s : (loop (block_step wrap) c s).1 = [] ->
    qf_when (loop (block_step wrap) c s).2.2 = match field c "when" with Some v => value_of v | None => qf_when s.2 end.
  Proof. apply (loop_last (block_step wrap) (fun s => qf_when s.2) "when" value_of); [|untouched]. here. reflexivity. Qed.

  Definition block_reads (c : list (node * node)) : qfields :=
    QFields (field c "parallel" ≫= seq_of) (text c "mode") (default 0%Z (int_of Y c "limit")) (bool_of Y c "color") (bool_of Y c "silent")
      (bool_of Y c "output") (strs_of Y c "platforms") (text c "when").
  Lemma qf_ext (a b : qfields) : qf_items a = qf_items b -> qf_mode a = qf_mode b -> qf_limit a = qf_limit b -> qf_color a = qf_color b ->
    qf_silent a = qf_silent b -> qf_output a = qf_output b -> qf_platforms a = qf_platforms b -> qf_when a = qf_when b -> a = b.
  Proof. destruct a, b. simpl. intros. subst. reflexivity. Qed.
  Lemma parallel_fields_spec wrap c :
    ((parallel_fields Y wrap c false no_qf).1.1 = [] <-> Forall (fun kv => block_entry_ok Y (value_of kv.1) kv.2) c) /\
    ((parallel_fields Y wrap c false no_qf).1.2 = false <-> (parallel_fields Y wrap c false no_qf).1.1 = []) /\
    ((parallel_fields Y wrap c false no_qf).1.1 = [] -> (parallel_fields Y wrap c false no_qf).2 = block_reads c).
  Proof.
    rewrite parallel_fields_loop. cbn [fst snd]. split; [apply block_ok|]. split; [rewrite block_flag; simpl; tauto|]. intros H.
    apply qf_ext; unfold block_reads; cbn [qf_items qf_mode qf_limit qf_color qf_silent qf_output qf_platforms qf_when].
    all: unfold text, strs_of, bool_of, int_of.
    - rewrite (blk_items _ _ _ H). destruct (field c "parallel"); reflexivity.
    - rewrite (blk_mode _ _ _ H). reflexivity.
    - rewrite (blk_limit _ _ _ H). destruct (field c "limit"); reflexivity.
    - rewrite (blk_color _ _ _ H). destruct (field c "color"); reflexivity.
    - rewrite (blk_silent _ _ _ H). destruct (field c "silent"); reflexivity.
    - rewrite (blk_output _ _ _ H). destruct (field c "output"); reflexivity.
    - rewrite (blk_platforms _ _ _ H). destruct (field c "platforms"); reflexivity.
    - rewrite (blk_when _ _ _ H). reflexivity.
  Qed.

  (** ** Lists of run items *)
  Lemma items_loop_spec item i l : (forall j n, n ∈ l -> exact_item n (item j n)) ->
    (forall items, Forall2 becomes l items <-> (items_loop item i l).1.2 = false /\ (items_loop item i l).2 = items) /\
    ((items_loop item i l).1.1 = [] <-> (items_loop item i l).1.2 = false).
  Proof.
    revert i. induction l as [|n r IH]; intros i H.
    - split; [|simpl; split; reflexivity]. intros items. simpl. split; [intros Hf; inversion Hf; auto|intros [_ <-]; constructor].
    - destruct (IH (S i)) as [I1 I2]. { intros j m Hm. apply H. constructor. exact Hm. }
      destruct (H i n ltac:(constructor)) as [E1 E2]. cbn [items_loop].
      destruct (item i n) as [es it], (items_loop item (S i) r) as [[es' bad] its]. cbn [fst snd] in *. split.
      + intros items. split.
        * intros Hf. inversion Hf as [|? x ? items' Hx Hr]; subst. apply E1 in Hx. subst it. apply I1 in Hr as [-> ->]. auto.
        * destruct it as [x|]; intros [Hb Hi]; [|discriminate]. subst items. constructor; [apply E1; reflexivity|]. apply I1. auto.
      + rewrite app_nil, E2, I2. destruct it as [x|]; [|split; [intros [[? ?] _]; discriminate|discriminate]]. split; [tauto|]. intros ->. eauto.
  Qed.

  Lemma run_items_spec item name n : (forall j m l c, n = YSeq l c -> m ∈ c -> exact_item m (item j m)) ->
    (forall items, (exists l c, n = YSeq l c /\ Forall2 becomes c items) <-> (run_items_with item name n).1.2 = true /\ (run_items_with item name n).2 = items) /\
    ((run_items_with item name n).1.1 = [] <-> (run_items_with item name n).1.2 = true).
  Proof.
    intros H. unfold run_items_with. destruct n as [l t v|l c|l c|l a t]; cbn [fst snd].
    1, 3, 4: (split; [|split; discriminate]; intros items; split; [intros (? & ? & ? & _); discriminate|intros [? _]; discriminate]).
    destruct (items_loop_spec item 0 c) as [I1 I2]. { intros j m Hm. eapply H; [reflexivity|exact Hm]. }
    destruct (items_loop item 0 c) as [[es bad] its]. cbn [fst snd] in *. split; [|rewrite negb_true_iff; exact I2].
    intros items. rewrite negb_true_iff, <- I1. split; [intros (? & ? & [= <- <-] & Hf); exact Hf|]. intros Hf. exists l, c. auto.
  Qed.

  Lemma validate_items_spec wrap nodes items : length nodes = length items ->
    ((validate_parallel_items wrap nodes items).1 = [] <-> Forall simple items) /\ agree (validate_parallel_items wrap nodes items).
  Proof.
    revert nodes. induction items as [|it items IH]; intros nodes Hl; destruct nodes as [|n nodes]; try discriminate; cbn [validate_parallel_items].
    - split; [split; [constructor|reflexivity]|apply agree_nil].
    - destruct (IH nodes ltac:(simpl in Hl; lia)) as [I1 I2]. split.
      + rewrite both_ok, I1, Forall_cons. destruct it; simpl; rewrite ?report_ok; split; intros [H1 H2]; try discriminate; try (destruct H1; fail); auto.
      + apply both_agree; [|exact I2]. destruct it; first [apply agree_nil|apply report_agree].
  Qed.

  Lemma label_of_spec n : label_of n = label n.
  Proof.
    destruct n as [l t v|l c|l c|l a t]; try reflexivity. cbn [label_of label]. unfold under.
    assert (E : filter (fun kv : node * node => is (value_of kv.1) "label" = true) c = filter (fun kv => value_of kv.1 = lit "label") c).
    { apply list_filter_iff. intros kv. apply is_true. }
    rewrite E. destruct (filter (fun kv : node * node => value_of kv.1 = lit "label") c); reflexivity.
  Qed.
  Lemma labels_spec nodes items : length nodes = length items -> parallel_labels nodes items = map label nodes.
  Proof.
    intros H. unfold parallel_labels. apply list_eq. intros j. rewrite list_lookup_imap. change (map label nodes) with (label <$> nodes). rewrite list_lookup_fmap.
    destruct (items !! j) as [it|] eqn:E.
    - destruct (nodes !! j) as [n|] eqn:En; simpl; [rewrite label_of_spec; reflexivity|]. apply lookup_lt_Some in E. apply lookup_ge_None in En. lia.
    - simpl. apply lookup_ge_None in E. rewrite lookup_ge_None_2 by lia. reflexivity.
  Qed.

  Lemma parallel_item_spec items_of line wrap c :
    (forall l nodes, field c "parallel" = Some (YSeq l nodes) ->
      (forall items, Forall2 becomes nodes items <-> (items_of (YSeq l nodes)).1.2 = true /\ (items_of (YSeq l nodes)).2 = items) /\
      ((items_of (YSeq l nodes)).1.1 = [] <-> (items_of (YSeq l nodes)).1.2 = true)) ->
    has c "parallel" -> exact_item (YMap line c) (parallel_item Y items_of line wrap c).
  Proof.
    intros Hi Hh. unfold parallel_item. destruct (parallel_fields_spec wrap c) as (P1 & P2 & P3).
    destruct (parallel_fields Y wrap c false no_qf) as [[es bad] qf]. cbn [fst snd] in *.
    assert (NP : forall it, becomes (YMap line c) it -> exists o items l nodes, it = RPar o items /\
        Forall (fun kv => block_entry_ok Y (value_of kv.1) kv.2) c /\ field c "parallel" = Some (YSeq l nodes) /\ nodes <> [] /\ Forall2 becomes nodes items /\ Forall simple items).
    { intros it Hit. inversion Hit as [? ? (H & _)|? ? (H & _)|? ? (H & _)|? ? ? (H & _)|? ? l' its items H1 H2 H3 H4 H5]; subst; try contradiction.
      eexists _, items, l', its. repeat (split; [first [reflexivity|assumption]|]). assumption. }
    assert (None_ok : forall es, es <> [] -> (forall it, ~ becomes (YMap line c) it) -> exact_item (YMap line c) (es, None)).
    { intros es0 H0 H. split; [|simpl; split; [intros E; contradiction|intros [? ?]; discriminate]]. intros it. split; [intros Hit; destruct (H it Hit)|discriminate]. }
    destruct bad.
    { apply None_ok; [intros E; apply P2 in E; discriminate|]. intros it Hit. destruct (NP it Hit) as (? & ? & ? & ? & _ & H & _). apply P1, P2 in H. discriminate. }
    assert (Es : es = []) by (apply P2; reflexivity). rewrite (P3 Es). subst es. clear P2 P3. pose proof (proj1 P1 eq_refl) as Hc. clear P1. unfold block_reads.
    cbn [qf_items qf_mode qf_limit qf_color qf_silent qf_output qf_platforms qf_when].
    assert (Hf : exists l nodes, field c "parallel" = Some (YSeq l nodes)).
    { destruct (field c "parallel") as [v|] eqn:E.
      - apply last_Some_elem_of in E. apply elem_of_list_fmap in E as ([k v'] & -> & Hkv). apply elem_of_list_filter in Hkv as [H1 H2]. cbn [fst snd] in *.
        rewrite Forall_forall in Hc. specialize (Hc _ H2). cbn [fst snd] in Hc. destruct (bo_items _ _ _ Hc H1) as (l & its & ->). eauto.
      - exfalso. destruct Hh as (kv & Hkv & Hk). unfold field, field_at in E. apply last_None in E. unfold under in E. apply fmap_nil_inv in E.
        assert (Hin : kv ∈ filter (fun kv => value_of kv.1 = lit "parallel") c) by (apply elem_of_list_filter; auto). rewrite E in Hin. apply elem_of_nil in Hin. exact Hin. }
    destruct Hf as (l & nodes & Hf). rewrite Hf. cbn [mbind option_bind seq_of]. destruct (Hi l nodes Hf) as [I1 I2]. clear Hi.
    destruct nodes as [|n nodes].
    { apply None_ok; [discriminate|]. intros it Hit. destruct (NP it Hit) as (? & ? & l' & nd & _ & _ & E & Hne & _). rewrite Hf in E. injection E as <- <-. contradiction. }
    set (nds := n :: nodes) in *. destruct (items_of (YSeq l nds)) as [[es1 ok] items]. cbn [fst snd] in *.
    destruct ok.
    2:{ cbn [app]. apply None_ok; [intros E; apply I2 in E; discriminate|]. intros it Hit. destruct (NP it Hit) as (? & items' & l' & nd & _ & _ & E & _ & Hfa & _).
        rewrite Hf in E. injection E as <- <-. apply I1 in Hfa as [? _]. discriminate. }
    assert (Hes1 : es1 = []) by (apply I2; reflexivity). subst es1.
    assert (Hfa : Forall2 becomes nds items) by (apply I1; auto). pose proof (Forall2_length _ _ _ Hfa) as Hlen.
    destruct (validate_items_spec wrap nds items Hlen) as [V1 V2]. destruct (validate_parallel_items wrap nds items) as [es2 ok2]. unfold agree in V2. cbn [fst snd app] in *.
    destruct ok2.
    - assert (es2 = []) by (apply V2; reflexivity). subst es2. pose proof (proj1 V1 eq_refl) as Hs. rewrite labels_spec by exact Hlen.
      assert (Hm : match text c "mode" with [] => lit "interleaved" | a :: m => a :: m end = or_else (text c "mode") "interleaved") by (destruct (text c "mode"); reflexivity).
      rewrite Hm. clear Hm. split; [|simpl; split; [eauto|reflexivity]].
      intros it. cbn [snd]. split.
      + intros Hit. inversion Hit as [? ? (H & _)|? ? (H & _)|? ? (H & _)|? ? ? (H & _)|? ? l' its items' H1 H2 H3 H4 H5]; subst; try contradiction.
        rewrite Hf in H2. injection H2 as <- <-. apply I1 in H4 as [_ <-]. reflexivity.
      + intros H. apply (inj Some) in H. rewrite <- H. refine (B_par Y line c l nds items Hc Hf _ Hfa Hs). discriminate.
    - apply None_ok; [intros E; apply V2 in E; discriminate|]. intros it Hit. destruct (NP it Hit) as (? & items' & l' & nd & _ & _ & E & _ & Hfa' & Hs).
      rewrite Hf in E. injection E as <- <-. apply I1 in Hfa' as [_ <-]. apply V1, V2 in Hs. discriminate.
  Qed.

  (** ** All run items; the fuel is enough. *)
  Lemma depth_field c k n : field c k = Some n -> depth n <= foldr (fun kv m => Nat.max (depth (snd kv)) m) 0 c.
  Proof.
    intros H. apply last_Some_elem_of in H. apply elem_of_list_fmap in H as (kv & -> & Hkv). apply elem_of_list_filter in Hkv as [_ Hin].
    induction c as [|x c IH]; [apply elem_of_nil in Hin; destruct Hin|]. simpl. apply elem_of_cons in Hin as [<-|Hin]; [lia|]. specialize (IH Hin). lia.
  Qed.
  Lemma depth_elem (l : list node) n : n ∈ l -> depth n <= foldr (fun x m => Nat.max (depth x) m) 0 l.
  Proof. induction l as [|x l IH]; [intros H; apply elem_of_nil in H; destruct H|]. simpl. intros [->|H]%elem_of_cons; [lia|]. specialize (IH H). lia. Qed.

  Lemma parallel_test c : existsb (fun kv => is (value_of (fst kv)) "parallel") c = true <-> has c "parallel".
  Proof.
    rewrite existsb_exists. unfold has. split; intros (kv & H1 & H2); exists kv; (split; [apply elem_of_list_In; exact H1|]).
    - apply is_true. exact H2.
    - apply is_true. exact H2.
  Qed.

  Lemma run_item_upto_spec fuel name i n : depth n <= fuel -> exact_item n (run_item_upto Y fuel name i n).
  Proof.
    revert i n. induction fuel as [|fuel IH]; intros i n Hd; [destruct n; simpl in Hd; lia|].
    assert (Bad : forall it l c, becomes n it -> n <> YMap l c -> exists l c, n = YMap l c) by (intros it l c H _; inversion H; eauto).
    destruct n as [l t v|l c|l c|l a t]; cbn [run_item_upto].
    1, 2, 4: (split; [intros it; split; [intros H; inversion H|discriminate]|simpl; split; [discriminate|intros [? ?]; discriminate]]).
    destruct (existsb _ c) eqn:E.
    - apply parallel_test in E. apply parallel_item_spec; [|exact E]. intros l' nodes Hf.
      destruct (run_items_spec (run_item_upto Y fuel name) name (YSeq l' nodes)) as [R1 R2].
      { intros j m l0 c0 [= <- <-] Hm. apply IH. apply depth_field in Hf. simpl in Hf, Hd. apply depth_elem in Hm. lia. }
      split; [|exact R2]. intros items. rewrite <- R1. split; [intros H; exists l', nodes; auto|]. intros (? & ? & [= <- <-] & H). exact H.
    - apply plain_item_spec. intros H. apply parallel_test in H. congruence.
  Qed.
  Theorem parse_run_item_spec name i n : exact_item n (parse_run_item Y name i n).
  Proof. apply run_item_upto_spec. reflexivity. Qed.
  Theorem parse_run_items_spec name n :
    (forall items, (exists l c, n = YSeq l c /\ Forall2 becomes c items) <-> (parse_run_items Y name n).1.2 = true /\ (parse_run_items Y name n).2 = items) /\
    ((parse_run_items Y name n).1.1 = [] <-> (parse_run_items Y name n).1.2 = true).
  Proof. apply run_items_spec. intros j m _ _ _ _. apply parse_run_item_spec. Qed.
End Tree.
