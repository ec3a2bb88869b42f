(** The functions of unmarshal.go compute what [Doc_Spec] says. *)
From Verif Require Import Base Types_Model Include_Model Doc_Model Doc_Spec.

(** ** Keys *)
Lemma lit_inj a b : lit a = lit b -> a = b.
Proof. intros H. unfold lit in H. rewrite <- (string_of_list_ascii_of_string a), <- (string_of_list_ascii_of_string b), H. reflexivity. Qed.
Lemma is_true s k : is s k = true <-> s = lit k.
Proof. unfold is. apply bool_decide_eq_true. Qed.
Lemma is_false s k : is s k = false <-> s <> lit k.
Proof. unfold is. apply bool_decide_eq_false. Qed.
Lemma is_lit a b : is (lit a) b = String.eqb a b.
Proof.
  destruct (String.eqb a b) eqn:E.
  - apply is_true. apply String.eqb_eq in E. congruence.
  - apply is_false. intros H. apply lit_inj in H. apply String.eqb_neq in E. contradiction.
Qed.
Lemma one_of_nil s : one_of [] s <-> False.
Proof. unfold one_of. simpl. rewrite elem_of_nil. tauto. Qed.
Lemma one_of_cons s a l : one_of (a :: l) s <-> s = lit a \/ one_of l s.
Proof. unfold one_of. simpl. rewrite elem_of_cons. tauto. Qed.

(** ** Loops over the entries of a mapping *)
Section Loop.
  Context {St : Type} (step : St -> node -> node -> list derr * St).

  Fixpoint loop (c : list (node * node)) (s : St) : list derr * St :=
    match c with
    | [] => ([], s)
    | (k, v) :: r => let '(es, s') := step s k v in let '(es', s'') := loop r s' in (es ++ es', s'')
    end.

  Lemma loop_cons k v r s : loop ((k, v) :: r) s = ((step s k v).1 ++ (loop r (step s k v).2).1, (loop r (step s k v).2).2).
  Proof. simpl. destruct (step s k v) as [es s']. simpl. destruct (loop r s'). reflexivity. Qed.

  (** No errors iff every entry is fine. *)
  Lemma loop_ok (P : node -> node -> Prop) c s : (forall s k v, (step s k v).1 = [] <-> P k v) ->
    (loop c s).1 = [] <-> Forall (fun kv => P kv.1 kv.2) c.
  Proof.
    intros H. revert s. induction c as [|[k v] r IH]; intros s; [simpl; split; [constructor|reflexivity]|].
    rewrite loop_cons. simpl. rewrite app_nil, Forall_cons, IH, H. reflexivity.
  Qed.

  (** A part of the state that only one key sets. *)
  Lemma loop_last {T} (g : St -> T) (k : string) (h : node -> T) c s :
    (forall s a v, value_of a = lit k -> (step s a v).1 = [] -> g (step s a v).2 = h v) ->
    (forall s a v, value_of a <> lit k -> g (step s a v).2 = g s) ->
    (loop c s).1 = [] -> g (loop c s).2 = match field c k with Some v => h v | None => g s end.
  Proof.
    intros Hset Hkeep. revert s. induction c as [|[a v] r IH]; intros s; [reflexivity|].
    rewrite loop_cons. cbn [fst snd]. rewrite app_nil. intros [H1 H2]. rewrite (IH _ H2).
    unfold field, field_at, under. rewrite filter_cons. cbn [fst].
    destruct (decide (value_of a = lit k)) as [E|E].
    - cbn [fmap list_fmap snd]. rewrite last_cons. destruct (last _); [reflexivity|]. apply Hset; assumption.
    - destruct (last _); [reflexivity|]. apply Hkeep. exact E.
  Qed.

  Lemma loop_inv (P : St -> Prop) c s : (forall s k v, (step s k v).1 = [] -> P s -> P (step s k v).2) -> (loop c s).1 = [] -> P s -> P (loop c s).2.
  Proof.
    intros H. revert s. induction c as [|[a v] r IH]; intros s; [auto|].
    rewrite loop_cons. cbn [fst snd]. rewrite app_nil. intros [H1 H2] Hs. apply IH; [exact H2|]. apply H; assumption.
  Qed.
End Loop.

(** ** String maps and booleans *)
Lemma str_entries_spec wrong c m bad :
  ((str_entries wrong c m bad).1.1 = [] <-> Forall (fun kv => scalar kv.2) c) /\
  ((str_entries wrong c m bad).1.2 = false <-> (str_entries wrong c m bad).1.1 = [] /\ bad = false) /\
  ((str_entries wrong c m bad).1.1 = [] -> (str_entries wrong c m bad).2 = list_to_map (reverse (map (fun kv => (value_of kv.1, value_of kv.2)) c)) ∪ m).
Proof.
  revert m bad. induction c as [|[k v] r IH]; intros m bad.
  - simpl. split; [split; [constructor|reflexivity]|]. split; [tauto|]. intros _. symmetry. apply (left_id_L ∅ (∪)).
  - destruct v as [l t s|l x|l x|l a x]; cbn [str_entries].
    + destruct (IH (<[value_of k:=s]> m) bad) as (I1 & I2 & I3). split; [|split].
      * rewrite I1, Forall_cons. simpl. tauto.
      * exact I2.
      * intros H. rewrite (I3 H). cbn [map fst snd value_of]. rewrite reverse_cons, list_to_map_app. simpl.
        rewrite insert_empty. rewrite <- (assoc_L (∪)). f_equal. rewrite insert_union_singleton_l. reflexivity.
    + destruct (IH m true) as (I1 & I2 & I3). destruct (str_entries wrong r m true) as [[es b] m'] eqn:E. cbn [fst snd] in *. split; [|split].
      * split; [discriminate|]. intros H. apply Forall_cons in H as [[] _].
      * split; [|intros [? _]; discriminate]. intros ->. destruct (proj1 I2 eq_refl) as [_ ?]. discriminate.
      * discriminate.
    + destruct (IH m true) as (I1 & I2 & I3). destruct (str_entries wrong r m true) as [[es b] m'] eqn:E. cbn [fst snd] in *. split; [|split].
      * split; [discriminate|]. intros H. apply Forall_cons in H as [[] _].
      * split; [|intros [? _]; discriminate]. intros ->. destruct (proj1 I2 eq_refl) as [_ ?]. discriminate.
      * discriminate.
    + destruct (IH m true) as (I1 & I2 & I3). destruct (str_entries wrong r m true) as [[es b] m'] eqn:E. cbn [fst snd] in *. split; [|split].
      * split; [discriminate|]. intros H. apply Forall_cons in H as [[] _].
      * split; [|intros [? _]; discriminate]. intros ->. destruct (proj1 I2 eq_refl) as [_ ?]. discriminate.
      * discriminate.
Qed.

Lemma parse_str_map_spec a w n old :
  ((parse_str_map a w n old).1.1 = [] <-> str_map_ok n) /\
  ((parse_str_map a w n old).1.2 = true <-> (parse_str_map a w n old).1.1 = []) /\
  ((parse_str_map a w n old).1.1 = [] -> (parse_str_map a w n old).2 = Some (str_map n)).
Proof.
  unfold parse_str_map. destruct n as [l t s|l x|l c|l b x]; cbn [fst snd].
  1, 2, 4: (split; [split; [discriminate|intros (? & ? & ? & _); discriminate]|]; split; [split; discriminate|discriminate]).
  destruct (str_entries_spec w c ∅ false) as (I1 & I2 & I3). destruct (str_entries w c ∅ false) as [[es b] m]. cbn [fst snd] in *.
  split; [|split].
  - rewrite I1. split; [intros H; exists l, c; auto|]. intros (? & ? & [= <- <-] & H). exact H.
  - destruct b; simpl in *; [|tauto]. split; [discriminate|]. intros H. destruct (proj2 I2 (conj H eq_refl)); reflexivity.
  - intros H. rewrite (I3 H). simpl. rewrite (right_id_L ∅ (∪)). reflexivity.
Qed.

Section Proof.
  Context (Y : yaml).

  Lemma parse_bool_spec n old :
    ((parse_bool Y n old).1.1 = [] <-> bool_ok Y n) /\
    ((parse_bool Y n old).1.2 = true <-> (parse_bool Y n old).1.1 = []) /\
    ((parse_bool Y n old).1.1 = [] -> (parse_bool Y n old).2 = y_bool Y n).
  Proof.
    unfold parse_bool, bool_ok. destruct n as [l t s|l x|l c|l b x]; cbn [fst snd scalar].
    2, 3, 4: (split; [split; [discriminate|intros [[] _]]|]; split; [split; discriminate|discriminate]).
    destruct (y_bool Y (YScalar l t s)) as [b|]; cbn [fst snd].
    - split; [split; [eauto|reflexivity]|]. split; [tauto|reflexivity].
    - split; [split; [discriminate|intros [_ [? ?]]; discriminate]|]. split; [split; discriminate|discriminate].
  Qed.

  Lemma platform_valid p : valid_platform p = false <-> ~ one_of ["linux"; "darwin"; "windows"] p.
  Proof. unfold valid_platform, one_of. rewrite bool_decide_eq_false. reflexivity. Qed.

  Lemma parse_platforms_spec line wrap v :
    ((parse_platforms Y line wrap v).1.1 = [] <-> platforms_ok Y v) /\
    ((parse_platforms Y line wrap v).1.2 = true <-> (parse_platforms Y line wrap v).1.1 = []) /\
    ((parse_platforms Y line wrap v).1.1 = [] -> Some (parse_platforms Y line wrap v).2 = y_strs Y v).
  Proof.
    unfold parse_platforms, platforms_ok. destruct (y_strs Y v) as [ps|].
    2:{ cbn [fst snd]. split; [split; [discriminate|intros (? & ? & _); discriminate]|]. split; [split; discriminate|discriminate]. }
    destruct (filter (fun p => valid_platform p = false) ps) as [|p r] eqn:E; cbn [fst snd].
    - split; [|split; [tauto|reflexivity]]. split; [intros _|reflexivity]. exists ps. split; [reflexivity|].
      apply Forall_forall. intros p Hp. destruct (valid_platform p) eqn:H; [unfold valid_platform in H; apply bool_decide_eq_true in H; exact H|exfalso].
      assert (p ∈ filter (fun p => valid_platform p = false) ps) as Hin by (apply elem_of_list_filter; auto).
      rewrite E in Hin. apply elem_of_nil in Hin. exact Hin.
    - assert (p ∈ filter (fun p => valid_platform p = false) ps) as Hin by (rewrite E; constructor).
      apply elem_of_list_filter in Hin as [Hp Hin]. split; [split; [discriminate|]|split; [split; discriminate|discriminate]].
      intros (ps' & [= <-] & H). rewrite Forall_forall in H. apply platform_valid in Hp. destruct (Hp (H _ Hin)).
  Qed.

  (** ** Run items without [parallel] *)
  Lemma run_fields_loop wrap c rf : run_fields Y wrap c rf = loop (run_key Y wrap) c rf.
  Proof. revert rf. induction c as [|[k v] r IH]; intros rf; [reflexivity|]. simpl. destruct (run_key Y wrap rf k v). rewrite IH. reflexivity. Qed.

  Ltac keys := repeat match goal with
    | H : one_of _ _ |- _ => progress rewrite ?one_of_cons, ?one_of_nil in H
    | H : _ \/ _ |- _ => destruct H
    | H : False |- _ => destruct H
    | H : lit ?a = lit ?b |- _ => first [discriminate (lit_inj a b H) | clear H]
    | H : ?x = lit ?b, H' : ?x <> lit ?b |- _ => destruct (H' H)
    | H : ?x = lit ?b |- _ => is_var x; subst x
    end.
  Ltac key_case := match goal with |- context [is ?s ?k] =>
    let E := fresh "E" in destruct (is s k) eqn:E; [apply is_true in E; subst s|apply is_false in E] end.

  Ltac one := unfold one_of; simpl; rewrite ?elem_of_cons; auto 10.

  Lemma entry_dir v : entry_ok Y (lit "dir") v <-> scalar v.
  Proof. split; [intros H; exact (eo_dir _ _ _ H eq_refl)|]. intros H. constructor; intros; keys; exact H. Qed.
  Lemma entry_env v : entry_ok Y (lit "env") v <-> str_map_ok v.
  Proof. split; [intros H; exact (eo_env _ _ _ H eq_refl)|]. intros H. constructor; intros; keys; exact H. Qed.
  Lemma entry_bool x v : one_of ["silent"; "output"; "confirm"] x -> entry_ok Y x v <-> bool_ok Y v.
  Proof. intros Hx. split; [intros H; exact (eo_bool _ _ _ H Hx)|]. intros H. constructor; intros; keys; try exact H. Qed.
  Lemma entry_platforms v : entry_ok Y (lit "platforms") v <-> platforms_ok Y v.
  Proof. split; [intros H; exact (eo_platforms _ _ _ H eq_refl)|]. intros H. constructor; intros; keys; exact H. Qed.
  Lemma entry_strs x v : one_of ["options"; "defaults"] x -> entry_ok Y x v <-> is_Some (y_strs Y v).
  Proof. intros Hx. split; [intros H; exact (eo_strs _ _ _ H Hx)|]. intros H. constructor; intros; keys; try exact H. Qed.
  Lemma entry_int x v : one_of ["min"; "max"] x -> entry_ok Y x v <-> is_Some (y_int Y v).
  Proof. intros Hx. split; [intros H; exact (eo_int _ _ _ H Hx)|]. intros H. constructor; intros; keys; try exact H. Qed.

  Lemma run_key_ok wrap rf k v : (run_key Y wrap rf k v).1 = [] <-> entry_ok Y (value_of k) v.
  Proof.
    unfold run_key, parse_prompt_key. generalize (value_of k) as x. intros x.
    key_case. { split; [intros _; constructor; intros; keys|reflexivity]. }
    key_case. { rewrite entry_dir. destruct v; cbn [fst scalar]; split; intros H; try discriminate H; try reflexivity; try exact I; destruct H. }
    do 4 (key_case; [split; [intros _; constructor; intros; keys|reflexivity]|]).
    key_case. { rewrite entry_env. destruct (parse_str_map_spec DEnvMap DEnvValue v (rf_env rf)) as (H1 & _ & _). unfold parse_env_map.
      destruct (parse_str_map DEnvMap DEnvValue v (rf_env rf)) as [[es ok] m]. exact H1. }
    key_case. { rewrite entry_bool by one. destruct (parse_bool_spec v (rf_silent rf)) as (H1 & _ & _). destruct (parse_bool Y v (rf_silent rf)) as [[es ok] m]. exact H1. }
    key_case. { rewrite entry_bool by one. destruct (parse_bool_spec v (rf_output rf)) as (H1 & _ & _). destruct (parse_bool Y v (rf_output rf)) as [[es ok] m]. exact H1. }
    key_case. { rewrite entry_platforms. destruct (parse_platforms_spec (line_of k) wrap v) as (H1 & _ & _). destruct (parse_platforms Y (line_of k) wrap v) as [[es ok] m]. exact H1. }
    key_case. { split; [intros _; constructor; intros; keys|reflexivity]. }
    do 6 (key_case; [split; [intros _; constructor; intros; keys|reflexivity]|]).
    do 2 (key_case; [rewrite entry_strs by one; destruct (y_strs Y v); cbn [fst]; split; intros H; [eauto|reflexivity|discriminate H|destruct H; discriminate]|]).
    do 2 (key_case; [rewrite entry_int by one; destruct (y_int Y v); cbn [fst]; split; intros H; [eauto|reflexivity|discriminate H|destruct H; discriminate]|]).
    key_case. { rewrite entry_bool by one. destruct (parse_bool_spec v (pf_confirm (rf_pf rf))) as (H1 & _ & _). destruct (parse_bool Y v (pf_confirm (rf_pf rf))) as [[es ok] m]. exact H1. }
    split; [intros _; constructor; intros; keys|reflexivity].
  Qed.

  (** [hasErrors] is set exactly with an error. *)
  Lemma run_key_bad wrap rf k v : (run_key Y wrap rf k v).1 = [] -> rf_bad (run_key Y wrap rf k v).2 = rf_bad rf.
  Proof.
    unfold run_key, parse_prompt_key, flag_rf, parse_env_map.
    repeat match goal with |- context [if is ?a ?b then _ else _] => destruct (is a b) end; try reflexivity.
    - destruct v; [reflexivity|discriminate..].
    - destruct (parse_str_map_spec DEnvMap DEnvValue v (rf_env rf)) as (_ & H & _). destruct (parse_str_map _ _ _ _) as [[es ok] m]. cbn [fst snd] in *.
      intros E. rewrite (proj2 H E). reflexivity.
    - destruct (parse_bool_spec v (rf_silent rf)) as (_ & H & _). destruct (parse_bool _ _ _) as [[es ok] m]. cbn [fst snd] in *. intros E. rewrite (proj2 H E). reflexivity.
    - destruct (parse_bool_spec v (rf_output rf)) as (_ & H & _). destruct (parse_bool _ _ _) as [[es ok] m]. cbn [fst snd] in *. intros E. rewrite (proj2 H E). reflexivity.
    - destruct (parse_platforms_spec (line_of k) wrap v) as (_ & H & _). destruct (parse_platforms _ _ _ _) as [[es ok] m]. cbn [fst snd] in *. intros E. rewrite (proj2 H E). reflexivity.
    - destruct (y_strs Y v); [reflexivity|discriminate].
    - destruct (y_strs Y v); [reflexivity|discriminate].
    - destruct (y_int Y v); [reflexivity|discriminate].
    - destruct (y_int Y v); [reflexivity|discriminate].
    - destruct (parse_bool_spec v (pf_confirm (rf_pf rf))) as (_ & H & _). destruct (parse_bool _ _ _) as [[es ok] m]. cbn [fst snd] in *. intros E. rewrite (proj2 H E). reflexivity.
  Qed.
  (** Conversely an error sets it; then the item is dropped only with an error. *)
  Lemma run_key_bad' wrap rf k v : rf_bad (run_key Y wrap rf k v).2 = true -> rf_bad rf = true \/ (run_key Y wrap rf k v).1 <> [].
  Proof. intros H. destruct (run_key Y wrap rf k v).1 eqn:E; [left|right; discriminate]. rewrite <- H. symmetry. apply run_key_bad. exact E. Qed.

  (** A field is what stands under its key. *)
  Ltac untouched := unfold run_key, parse_prompt_key, flag_rf, parse_env_map; let H := fresh in intros s a v H;
    repeat (match goal with |- context [if is ?x ?b then _ else _] => let E := fresh in destruct (is x b) eqn:E; [apply is_true in E; try (destruct (H E))|clear E] end);
    try reflexivity;
    try (match goal with
         | |- context [parse_bool ?a ?b ?c] => destruct (parse_bool a b c) as [[? []] ?]
         | |- context [parse_str_map ?a ?b ?c ?d] => destruct (parse_str_map a b c d) as [[? []] ?]
         | |- context [parse_platforms ?a ?b ?c ?d] => destruct (parse_platforms a b c d) as [[? []] ?]
         | |- context [y_strs ?a ?b] => destruct (y_strs a b)
         | |- context [y_int ?a ?b] => destruct (y_int a b)
         | v : node |- _ => destruct v
         end); reflexivity.
  Ltac here := unfold run_key, parse_prompt_key, flag_rf, parse_env_map; let E := fresh in intros s a v E; rewrite E, !is_lit; cbn [String.eqb Ascii.eqb Bool.eqb].
  Lemma run_cmd wrap c rf : (run_fields Y wrap c rf).1 = [] ->
    rf_cmd (run_fields Y wrap c rf).2 = match field c "cmd" with Some v => value_of v | None => rf_cmd rf end.
  Proof.
    rewrite run_fields_loop. apply (loop_last (run_key Y wrap) rf_cmd "cmd" value_of); [|untouched].
    here. reflexivity.
  Qed.
  Lemma run_task wrap c rf : (run_fields Y wrap c rf).1 = [] ->
    rf_task (run_fields Y wrap c rf).2 = match field c "task" with Some v => value_of v | None => rf_task rf end.
  Proof.
    rewrite run_fields_loop. apply (loop_last (run_key Y wrap) rf_task "task" value_of); [|untouched].
    here. reflexivity.
  Qed.
  Lemma run_log wrap c rf : (run_fields Y wrap c rf).1 = [] ->
    rf_log (run_fields Y wrap c rf).2 = match field c "log" with Some v => value_of v | None => rf_log rf end.
  Proof.
    rewrite run_fields_loop. apply (loop_last (run_key Y wrap) rf_log "log" value_of); [|untouched].
    here. reflexivity.
  Qed.
  Lemma run_dir wrap c rf : (run_fields Y wrap c rf).1 = [] ->
    rf_dir (run_fields Y wrap c rf).2 = match field c "dir" with Some v => value_of v | None => rf_dir rf end.
  Proof.
    rewrite run_fields_loop. apply (loop_last (run_key Y wrap) rf_dir "dir" value_of); [|untouched].
    here. destruct v; [reflexivity|discriminate..].
  Qed.
  Lemma run_when wrap c rf : (run_fields Y wrap c rf).1 = [] ->
    rf_when (run_fields Y wrap c rf).2 = match field c "when" with Some v => value_of v | None => rf_when rf end.
  Proof.
    rewrite run_fields_loop. apply (loop_last (run_key Y wrap) rf_when "when" value_of); [|untouched].
    here. reflexivity.
  Qed.
  Lemma run_env wrap c rf : (run_fields Y wrap c rf).1 = [] ->
    rf_env (run_fields Y wrap c rf).2 = match field c "env" with Some v => (fun v => Some (str_map v)) v | None => rf_env rf end.
  Proof.
    rewrite run_fields_loop. apply (loop_last (run_key Y wrap) rf_env "env" (fun v => Some (str_map v))); [|untouched].
    here. destruct (parse_str_map_spec DEnvMap DEnvValue v (rf_env s)) as (_ & _ & H'). destruct (parse_str_map _ _ _ _) as [[es ok] m]. cbn [fst snd] in *. intros E. rewrite <- (H' E). destruct ok; reflexivity.
  Qed.
  Lemma run_platforms wrap c rf : (run_fields Y wrap c rf).1 = [] ->
    rf_platforms (run_fields Y wrap c rf).2 = match field c "platforms" with Some v => (fun v => default [] (y_strs Y v)) v | None => rf_platforms rf end.
  Proof.
    rewrite run_fields_loop. apply (loop_last (run_key Y wrap) rf_platforms "platforms" (fun v => default [] (y_strs Y v))); [|untouched].
    here. destruct (parse_platforms_spec (line_of a) wrap v) as (_ & _ & H'). destruct (parse_platforms _ _ _ _) as [[es ok] m]. cbn [fst snd] in *. intros E. rewrite <- (H' E). destruct ok; reflexivity.
  Qed.
  Lemma run_level wrap c rf : (run_fields Y wrap c rf).1 = [] ->
    rf_level (run_fields Y wrap c rf).2 = match field c "level" with Some v => value_of v | None => rf_level rf end.
  Proof.
    rewrite run_fields_loop. apply (loop_last (run_key Y wrap) rf_level "level" value_of); [|untouched].
    here. reflexivity.
  Qed.
  Lemma run_silent wrap c rf : (run_fields Y wrap c rf).1 = [] ->
    rf_silent (run_fields Y wrap c rf).2 = match field c "silent" with Some v => (y_bool Y) v | None => rf_silent rf end.
  Proof.
    rewrite run_fields_loop. apply (loop_last (run_key Y wrap) rf_silent "silent" (y_bool Y)); [|untouched].
    here. destruct (parse_bool_spec v (rf_silent s)) as (_ & _ & H'). destruct (parse_bool _ _ _) as [[es ok] m]. cbn [fst snd] in *. intros E. rewrite <- (H' E). destruct ok; reflexivity.
  Qed.
  Lemma run_output wrap c rf : (run_fields Y wrap c rf).1 = [] ->
    rf_output (run_fields Y wrap c rf).2 = match field c "output" with Some v => (y_bool Y) v | None => rf_output rf end.
  Proof.
    rewrite run_fields_loop. apply (loop_last (run_key Y wrap) rf_output "output" (y_bool Y)); [|untouched].
    here. destruct (parse_bool_spec v (rf_output s)) as (_ & _ & H'). destruct (parse_bool _ _ _) as [[es ok] m]. cbn [fst snd] in *. intros E. rewrite <- (H' E). destruct ok; reflexivity.
  Qed.
  Lemma run_prompt wrap c rf : (run_fields Y wrap c rf).1 = [] ->
    pf_name (rf_pf (run_fields Y wrap c rf).2) = match field c "prompt" with Some v => value_of v | None => pf_name (rf_pf rf) end.
  Proof.
    rewrite run_fields_loop. apply (loop_last (run_key Y wrap) (fun r => pf_name (rf_pf r)) "prompt" value_of); [|untouched].
    here. reflexivity.
  Qed.
  Lemma run_type wrap c rf : (run_fields Y wrap c rf).1 = [] ->
    pf_type (rf_pf (run_fields Y wrap c rf).2) = match field c "type" with Some v => value_of v | None => pf_type (rf_pf rf) end.
  Proof.
    rewrite run_fields_loop. apply (loop_last (run_key Y wrap) (fun r => pf_type (rf_pf r)) "type" value_of); [|untouched].
    here. reflexivity.
  Qed.
  Lemma run_message wrap c rf : (run_fields Y wrap c rf).1 = [] ->
    pf_message (rf_pf (run_fields Y wrap c rf).2) = match field c "message" with Some v => value_of v | None => pf_message (rf_pf rf) end.
  Proof.
    rewrite run_fields_loop. apply (loop_last (run_key Y wrap) (fun r => pf_message (rf_pf r)) "message" value_of); [|untouched].
    here. reflexivity.
  Qed.
  Lemma run_default wrap c rf : (run_fields Y wrap c rf).1 = [] ->
    pf_dflt (rf_pf (run_fields Y wrap c rf).2) = match field c "default" with Some v => value_of v | None => pf_dflt (rf_pf rf) end.
  Proof.
    rewrite run_fields_loop. apply (loop_last (run_key Y wrap) (fun r => pf_dflt (rf_pf r)) "default" value_of); [|untouched].
    here. reflexivity.
  Qed.
  Lemma run_placeholder wrap c rf : (run_fields Y wrap c rf).1 = [] ->
    pf_placeholder (rf_pf (run_fields Y wrap c rf).2) = match field c "placeholder" with Some v => value_of v | None => pf_placeholder (rf_pf rf) end.
  Proof.
    rewrite run_fields_loop. apply (loop_last (run_key Y wrap) (fun r => pf_placeholder (rf_pf r)) "placeholder" value_of); [|untouched].
    here. reflexivity.
  Qed.
  Lemma run_validate wrap c rf : (run_fields Y wrap c rf).1 = [] ->
    pf_validate (rf_pf (run_fields Y wrap c rf).2) = match field c "validate" with Some v => value_of v | None => pf_validate (rf_pf rf) end.
  Proof.
    rewrite run_fields_loop. apply (loop_last (run_key Y wrap) (fun r => pf_validate (rf_pf r)) "validate" value_of); [|untouched].
    here. reflexivity.
  Qed.
  Lemma run_options wrap c rf : (run_fields Y wrap c rf).1 = [] ->
    pf_options (rf_pf (run_fields Y wrap c rf).2) = match field c "options" with Some v => (fun v => default [] (y_strs Y v)) v | None => pf_options (rf_pf rf) end.
  Proof.
    rewrite run_fields_loop. apply (loop_last (run_key Y wrap) (fun r => pf_options (rf_pf r)) "options" (fun v => default [] (y_strs Y v))); [|untouched].
    here. destruct (y_strs Y v); [reflexivity|discriminate].
  Qed.
  Lemma run_defaults wrap c rf : (run_fields Y wrap c rf).1 = [] ->
    pf_defaults (rf_pf (run_fields Y wrap c rf).2) = match field c "defaults" with Some v => (fun v => default [] (y_strs Y v)) v | None => pf_defaults (rf_pf rf) end.
  Proof.
    rewrite run_fields_loop. apply (loop_last (run_key Y wrap) (fun r => pf_defaults (rf_pf r)) "defaults" (fun v => default [] (y_strs Y v))); [|untouched].
    here. destruct (y_strs Y v); [reflexivity|discriminate].
  Qed.
  Lemma run_min wrap c rf : (run_fields Y wrap c rf).1 = [] ->
    pf_min (rf_pf (run_fields Y wrap c rf).2) = match field c "min" with Some v => (y_int Y) v | None => pf_min (rf_pf rf) end.
  Proof.
    rewrite run_fields_loop. apply (loop_last (run_key Y wrap) (fun r => pf_min (rf_pf r)) "min" (y_int Y)); [|untouched].
    here. destruct (y_int Y v); [reflexivity|discriminate].
  Qed.
  Lemma run_max wrap c rf : (run_fields Y wrap c rf).1 = [] ->
    pf_max (rf_pf (run_fields Y wrap c rf).2) = match field c "max" with Some v => (y_int Y) v | None => pf_max (rf_pf rf) end.
  Proof.
    rewrite run_fields_loop. apply (loop_last (run_key Y wrap) (fun r => pf_max (rf_pf r)) "max" (y_int Y)); [|untouched].
    here. destruct (y_int Y v); [reflexivity|discriminate].
  Qed.
  Lemma run_confirm wrap c rf : (run_fields Y wrap c rf).1 = [] ->
    pf_confirm (rf_pf (run_fields Y wrap c rf).2) = match field c "confirm" with Some v => (y_bool Y) v | None => pf_confirm (rf_pf rf) end.
  Proof.
    rewrite run_fields_loop. apply (loop_last (run_key Y wrap) (fun r => pf_confirm (rf_pf r)) "confirm" (y_bool Y)); [|untouched].
    here. destruct (parse_bool_spec v (pf_confirm (rf_pf s))) as (_ & _ & H'). destruct (parse_bool _ _ _) as [[es ok] m]. cbn [fst snd] in *. intros E. rewrite <- (H' E). destruct ok; reflexivity.
  Qed.
  Lemma run_bad wrap c rf : (run_fields Y wrap c rf).1 = [] -> rf_bad (run_fields Y wrap c rf).2 = rf_bad rf.
  Proof.
    rewrite run_fields_loop. intros H. apply (loop_inv (run_key Y wrap) (fun r => rf_bad r = rf_bad rf)); [|exact H|reflexivity].
    intros s k v E <-. apply run_key_bad. exact E.
  Qed.

  Definition reads (c : list (node * node)) : rfields :=
    RFields (text c "cmd") (text c "task") (text c "log") (text c "dir") (text c "when") (map_of c "env") (strs_of Y c "platforms")
      (text c "level") (bool_of Y c "silent") (bool_of Y c "output") false
      (PFields (text c "prompt") (text c "type") (text c "message") (text c "default") (text c "placeholder") (text c "validate")
         (strs_of Y c "options") (strs_of Y c "defaults") (int_of Y c "min") (int_of Y c "max") (bool_of Y c "confirm")).
  Lemma rf_ext (a b : rfields) :
    rf_cmd a = rf_cmd b -> rf_task a = rf_task b -> rf_log a = rf_log b -> rf_dir a = rf_dir b -> rf_when a = rf_when b -> rf_env a = rf_env b ->
    rf_platforms a = rf_platforms b -> rf_level a = rf_level b -> rf_silent a = rf_silent b -> rf_output a = rf_output b -> rf_bad a = rf_bad b ->
    pf_name (rf_pf a) = pf_name (rf_pf b) -> pf_type (rf_pf a) = pf_type (rf_pf b) -> pf_message (rf_pf a) = pf_message (rf_pf b) ->
    pf_dflt (rf_pf a) = pf_dflt (rf_pf b) -> pf_placeholder (rf_pf a) = pf_placeholder (rf_pf b) -> pf_validate (rf_pf a) = pf_validate (rf_pf b) ->
    pf_options (rf_pf a) = pf_options (rf_pf b) -> pf_defaults (rf_pf a) = pf_defaults (rf_pf b) -> pf_min (rf_pf a) = pf_min (rf_pf b) ->
    pf_max (rf_pf a) = pf_max (rf_pf b) -> pf_confirm (rf_pf a) = pf_confirm (rf_pf b) -> a = b.
  Proof.
    destruct a as [? ? ? ? ? ? ? ? ? ? ? [? ? ? ? ? ? ? ? ? ? ?]], b as [? ? ? ? ? ? ? ? ? ? ? [? ? ? ? ? ? ? ? ? ? ?]].
    simpl. intros. subst. reflexivity.
  Qed.
  Lemma run_fields_reads wrap c : (run_fields Y wrap c no_rf).1 = [] -> (run_fields Y wrap c no_rf).2 = reads c.
  Proof.
    intros H. apply rf_ext; unfold reads; cbn [rf_cmd rf_task rf_log rf_dir rf_when rf_env rf_platforms rf_level rf_silent rf_output rf_bad rf_pf
      pf_name pf_type pf_message pf_dflt pf_placeholder pf_validate pf_options pf_defaults pf_min pf_max pf_confirm].
    all: unfold text, map_of, strs_of, bool_of, int_of.
    - rewrite (run_cmd _ _ _ H). reflexivity.
    - rewrite (run_task _ _ _ H). reflexivity.
    - rewrite (run_log _ _ _ H). reflexivity.
    - rewrite (run_dir _ _ _ H). reflexivity.
    - rewrite (run_when _ _ _ H). reflexivity.
    - rewrite (run_env _ _ _ H). destruct (field c "env"); reflexivity.
    - rewrite (run_platforms _ _ _ H). destruct (field c "platforms"); reflexivity.
    - rewrite (run_level _ _ _ H). reflexivity.
    - rewrite (run_silent _ _ _ H). destruct (field c "silent"); reflexivity.
    - rewrite (run_output _ _ _ H). destruct (field c "output"); reflexivity.
    - exact (run_bad _ _ _ H).
    - rewrite (run_prompt _ _ _ H). reflexivity.
    - rewrite (run_type _ _ _ H). reflexivity.
    - rewrite (run_message _ _ _ H). reflexivity.
    - rewrite (run_default _ _ _ H). reflexivity.
    - rewrite (run_placeholder _ _ _ H). reflexivity.
    - rewrite (run_validate _ _ _ H). reflexivity.
    - rewrite (run_options _ _ _ H). destruct (field c "options"); reflexivity.
    - rewrite (run_defaults _ _ _ H). destruct (field c "defaults"); reflexivity.
    - rewrite (run_min _ _ _ H). destruct (field c "min"); reflexivity.
    - rewrite (run_max _ _ _ H). destruct (field c "max"); reflexivity.
    - rewrite (run_confirm _ _ _ H). destruct (field c "confirm"); reflexivity.
  Qed.
End Proof.
