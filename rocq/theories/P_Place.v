(** Theorems about the places that errors name: C76. *)
From Verif Require Import Base Types_Model Valid_Model Valid_Spec Vars_Proof Valid_Proof Alias_Proof P_Valid Path_Model Cond_Model Loc_Model Include_Model Include_Spec Include_Proof P_Include
  Out_Model Cli_Model Cli_Spec Cli_Proof Msg_Model Msg_Proof P_Msg Doc_Model Doc_Spec Doc_Proof Doc_Item Doc_Tree Doc_File Doc_Errors P_Doc Msg_Place Doc_Example.

(** ** Errors about run items *)

(** A list with a parallel block in it. *)
Definition has_block (its : list node) : Prop :=
  exists k l c pk pl its', its !! k = Some (YMap l c) /\ (pk, YSeq pl its') ∈ c /\ value_of pk = lit "parallel".

(** The task named is one of the file, the line is in an entry of its run list with that
    index, or of the list of a parallel block in it. Missing: that the index counts in the
    run list when there is a block, which is false (see below). *)
Theorem C76_item_place_partial Y l c es line t i ie : unmarshal_node Y (YMap l c) = Err (EInvalid es) -> (line, DItem t i ie) ∈ es ->
  exists k tl tc rk rl its m, (k, YMap tl tc) ∈ entries c "tasks" /\ value_of k = t /\ (rk, YSeq rl its) ∈ tc /\ value_of rk = lit "run" /\
    entry its i m /\ line_in line m /\ (its !! i = Some m \/ has_block its).
Proof.
  intros E H. destruct (errors_placed Y l c es line t i ie E H) as (n & sl & sc & k & tl & tc & rk & rl & its & m & H1 & H2 & H3 & H4 & H5 & H6 & H7 & H8).
  exists k, tl, tc, rk, rl, its, m. split; [|repeat (split; [assumption|])].
  - unfold entries. apply elem_of_list_In, in_concat. exists sc. split; [|apply elem_of_list_In; exact H3]. apply in_map_iff. exists (YMap sl sc). split; [reflexivity|]. apply elem_of_list_In, under_in. eauto.
  - destruct H7 as [its i m H7|its k' l' c' pk pl its' i m Ha Hb Hc _]; [left; exact H7|right]. exists k', l', c', pk, pl, its'. auto.
Qed.
Print Assumptions C76_item_place_partial.

(** The index of an item of a block is printed as one of the run list: the item of the run
    list with that index is accepted, and the line is not in it. *)
Definition block_doc : list (node * node) :=
  [ kv 1 "tasks" (mp 2
      [ kv 2 "build" (mp 3
          [ kv 3 "run" (seq 4
              [ mp 4 [kv 4 "parallel" (seq 5 [mp 5 [kv 5 "cmd" (sc 5 "a")]; mp 6 [kv 6 "cmd" (sc 6 "b"); kv 7 "dir" (seq 7 [])]])]
              ; mp 8 [kv 8 "cmd" (sc 8 "c")]])])])].
Theorem C76_block_index_refuted : exists Y l c line t i ie k tl tc rk rl its m it,
  unmarshal_node Y (YMap l c) = Err (EInvalid [(line, DItem t i ie)]) /\ entries c "tasks" = [(k, YMap tl tc)] /\ value_of k = t /\ tc = [(rk, YSeq rl its)] /\ value_of rk = lit "run" /\
  its !! i = Some m /\ becomes Y m it /\ ~ line_in line m.
Proof.
  exists Y0, 1, block_doc, 7, (lit "build"), 1, IDir, (sc 2 "build"), 3.
  eexists _, (sc 3 "run"), 4, _, (mp 8 [kv 8 "cmd" (sc 8 "c")]). eexists.
  split; [vm_compute; reflexivity|]. split; [reflexivity|]. split; [reflexivity|]. split; [reflexivity|]. split; [reflexivity|]. split; [reflexivity|]. split.
  - apply (C56_item_iff Y0 [] 0). vm_compute. reflexivity.
  - assert (G : forall l t v, ~ line_in 7 (YScalar (S (7 + l)) t v)) by (intros l t v H; inversion H; subst; discriminate).
    intros H. inversion H as [n E|n its x Hx H'|n c k v Hin H'|n c k v Hin H']; subst; [discriminate E| |]; (apply elem_of_list_singleton in Hin; injection Hin as -> ->; revert H'; apply (G 0)).
Qed.
Print Assumptions C76_block_index_refuted.

(** ** Errors about the tasks of all files together *)

Section Files.
  Context (Y : yaml).

  (** A reference inside an item that a node stands for. *)
  Lemma reference_node n it r : becomes Y n it -> at_depth it r -> forall its i, its !! i = Some n ->
    exists j c, entry its j (YMap (r_line r) c) /\ text c "task" = r_task r.
  Proof.
    intros Hb Hd. revert n Hb. induction Hd as [r|o l it r Hit Hd IH]; intros n Hb its i Hi.
    - inversion Hb; subst. exists i, c. split; [apply entry_here; exact Hi|reflexivity].
    - inversion Hb as [| | | |l0 c l' its' items Hk Hf Hne H2 Hs]; subst. apply elem_of_list_lookup in Hit as [k Hk']. destruct (Forall2_lookup_r _ _ _ _ _ H2 Hk') as (n' & Hn' & Hb').
      destruct (IH n' Hb' its' k Hn') as (j & c' & He & Ht). exists j, c'. split; [|exact Ht]. destruct (field_in _ _ _ Hf) as (pk & Hin & Hv). eapply entry_block; eassumption.
  Qed.
  Lemma moved_reference nss it it' r : moved nss it it' -> at_depth it' r -> exists r0, at_depth it r0 /\ r_line r0 = r_line r /\ r_task r = qualify nss (r_task r0).
  Proof.
    intros Hm Hd. revert it Hm. induction Hd as [r|o l it' r Hit Hd IH]; intros it Hm.
    - inversion Hm; subst. eexists. split; [constructor|]. split; reflexivity.
    - inversion Hm as [| | | |ln lb md lim col s s' o1 o1' ps w items items' H2 Hs]; subst. apply elem_of_list_lookup in Hit as [k Hk]. destruct (Forall2_lookup_r _ _ _ _ _ H2 Hk) as (n' & Hn' & Hb').
      destruct (IH n' Hb') as (r0 & H0 & H1). exists r0. split; [|exact H1]. econstructor; [|exact H0]. eapply elem_of_list_lookup_2. exact Hn'.
  Qed.

  (** The entry of task [m] in file [f], which is reached through [nss]. *)
  Definition entry_of (files : gmap str str) (root : str) (nss : list str) (f m : str) (k : node) (tc : list (node * node)) : Prop :=
    exists via bf data l c tl, leads (decoded Y files) root nss via f bf /\ files !! f = Some data /\ y_parse Y data = YDoc (YMap l c) /\ (k, YMap tl tc) ∈ entries c "tasks" /\ value_of k = m.

  Lemma task_entry files orc root r n t : oracle_ok orc -> parse_file (decoded Y files) orc (2 + size (decoded Y files)) ∅ [] root = Ok r -> pr_tasks r !! n = Some t ->
    exists nss f m k tl tc t0, n = qualify nss m /\ entry_of files root nss f m k tc /\ task_means Y k (YMap tl tc) t0 /\ placed_names nss f m t0 t.
  Proof.
    intros Ho H Ht. apply (parse_sound _ _ Ho) in H as ((bf & Hbf & _ & Htasks) & _). apply Htasks in Ht as (nss & m & Hh).
    pose proof (has_name _ _ _ _ _ _ Hh) as ->. apply has_origin in Hh as (via & f & t0 & (bf1 & Hl & Ht0) & Hn & _).
    pose proof (leads_end _ _ _ _ _ _ Hl) as Hf. apply decoded_in in Hf as (data & n & Hd & Hy & Hm).
    destruct Hm as (l & c & -> & Hs & _ & _ & _ & _ & _ & _ & Hts). apply Hts in Ht0 as (k & v & Hlast & Hm). pose proof Hm as (tl & tc & -> & _).
    apply last_Some_elem_of in Hlast. apply elem_of_list_filter in Hlast as [Hv Hin]. cbn in Hv.
    exists nss, f, m, k, tl, tc, t0. split; [reflexivity|]. split; [|split; [exact Hm|exact Hn]]. exists via, bf1, data, l, c, tl. auto.
  Qed.


  Lemma parse_invalid fs orc grow vorc cwd path es : parse fs orc grow vorc cwd path = Err (PInvalid es) ->
    exists r, parse_file fs orc (2 + size fs) ∅ [] (root_of cwd path) = Ok r /\ es = validate_all grow (pr_tasks r) (vorc (pr_tasks r)).
  Proof.
    unfold parse. destruct (trim_space path); [discriminate|]. fold (root_of cwd path). destruct (parse_file _ _ _ _ _ _) as [r|e] eqn:E.
    - intros H. exists r. split; [reflexivity|]. destruct (validate_all _ _ _); [discriminate H|]. injection H as <-. reflexivity.
    - intros [= ->]. exfalso. revert E. generalize (2 + size fs) as fuel, (∅ : gset str) as vis, (@nil str) as nsp, (root_of cwd path) as p.
      assert (A : forall ns ip r order tm, add_tasks ns ip r order tm <> Err (PInvalid es)).
      { intros ns ip r order. induction order as [|n order IH]; intros tm; cbn [add_tasks]; [discriminate|]. destruct (pr_tasks r !! n); [|apply IH]. destruct (tm_has _ _); [discriminate|apply IH]. }
      destruct fuel as [|fuel]; intros vis nsp p; cbn [parse_file]; [discriminate|]. destruct (decide _); [discriminate|]. destruct (fs !! p) as [[bf|]|]; try discriminate.
      match goal with |- context [include_loop ?o ?a ?b ?c ?d ?e ?f] => assert (L : include_loop o a b c d e f <> Err (PInvalid es)) end.
      { generalize (own_tasks p bf) as tm. induction (or_includes orc nsp (f_includes bf)) as [|ns order IH]; intros tm; cbn [include_loop]; [discriminate|]. destruct (f_includes bf !! ns); [|apply IH]. destruct (resolve_include _ _ _ _ _ _ _); [apply IH|discriminate]. }
      destruct (include_loop _ _ _ _ _ _ _); [discriminate|]. intros H. apply L. injection H as ->. reflexivity.
  Qed.

  (** What the error of a missing task says: the task that refers to it, as the tree of files
      has it, and the line of its list of dependencies or of the item with the reference. *)
  Theorem C76_reference_place files orc grow vorc cwd path es line name by_ : oracle_ok orc -> vorc_ok vorc ->
    parse (decoded Y files) orc grow vorc cwd path = Err (PInvalid es) -> VNotFound line name by_ ∈ es ->
    exists nss f m k tc n, by_ = qualify nss m /\ entry_of files (root_of cwd path) nss f m k tc /\ name = qualify nss n /\
      ((exists dk dv ds, (dk, dv) ∈ tc /\ value_of dk = lit "deps" /\ y_strs Y dv = Some ds /\ n ∈ ds /\ line = match line_of dk with 0 => line_of k | l => l end) \/
       (exists rk rl its j c, (rk, YSeq rl its) ∈ tc /\ value_of rk = lit "run" /\ entry its j (YMap line c) /\ text c "task" = n)).
  Proof.
    intros Ho Hv H He. apply parse_invalid in H as (r & Hr & ->). destruct (Hv (pr_tasks r)) as (Ho1 & Ho2 & Ho3 & _). unfold validate_all in He. apply elem_of_app in He as [He|He]; [|apply elem_of_app in He as [He|He]].
    - apply in_deps_pass in He as (a & t & n & Ht & Hd & _ & E); [|exact Ho1]. injection E as -> -> ->.
      destruct (task_entry _ _ _ _ _ _ Ho Hr Ht) as (nss & f & m & k & tl & tc & t0 & -> & Hen & Hm & Hn).
      rewrite (pn_deps _ _ _ _ _ Hn) in Hd. apply elem_of_list_fmap in Hd as (n0 & -> & Hd). exists nss, f, m, k, tc, n0. split; [reflexivity|]. split; [exact Hen|]. split; [reflexivity|]. left.
      destruct (pn_kept _ _ _ _ _ Hn) as (L1 & L2 & _). rewrite L1, L2. destruct Hm as (tl' & tc' & [= <- <-] & _ & Et & _). rewrite Et in Hd |- *. cbn [t_deps t_deps_line t_line] in Hd |- *.
      unfold strs_of, field, field_at, under in Hd. unfold key_at. rewrite fmap_last in Hd |- *. destruct (last (filter _ tc)) as [[dk dv]|] eqn:El; [|cbn in Hd; apply elem_of_nil in Hd; destruct Hd].
      cbn in Hd |- *. destruct (y_strs Y dv) as [ds|] eqn:Es; [|cbn in Hd; apply elem_of_nil in Hd; destruct Hd]. apply last_Some_elem_of in El. apply elem_of_list_filter in El as [Ev El].
      exists dk, dv, ds. auto 6.
    - apply in_refs_pass in He as (a & t & it & r' & Ht & Hit & Hd & _ & E); [|exact Ho2]. injection E as -> -> ->.
      destruct (task_entry _ _ _ _ _ _ Ho Hr Ht) as (nss & f & m & k & tl & tc & t0 & -> & Hen & Hm & Hn).
      apply elem_of_list_lookup in Hit as [i Hi]. destruct (Forall2_lookup_r _ _ _ _ _ (pn_run _ _ _ _ _ Hn) Hi) as (it0 & Hi0 & Hmv). destruct (moved_reference _ _ _ _ Hmv Hd) as (r0 & Hd0 & Hl & Hq).
      exists nss, f, m, k, tc, (r_task r0). split; [reflexivity|]. split; [exact Hen|]. split; [exact Hq|]. right.
      destruct Hm as (tl' & tc' & [= <- <-] & _ & _ & Hrun). destruct (field tc "run") as [rv|] eqn:Ef; [|rewrite Hrun in Hi0; discriminate Hi0].
      destruct Hrun as (rl & its & -> & H2). destruct (Forall2_lookup_r _ _ _ _ _ H2 Hi0) as (n & Hn' & Hb). destruct (reference_node _ _ _ Hb Hd0 _ _ Hn') as (j & c & He & Ht').
      apply field_in in Ef as (rk & Hin & Hv'). exists rk, rl, its, j, c. rewrite <- Hl. auto 6.
    - exfalso. apply elem_of_app in He as [He|He].
      + destruct (run_cycles_post grow (pr_tasks r) _ Ho3) as [[Hg _] _]. rewrite Forall_forall in Hg. destruct (Hg _ He) as (c & now & E & _). discriminate E.
      + revert He. apply alias_errs_kind.
  Qed.

  (** Where an alias is written in the entry of a task. *)
  Definition written_alias (tc : list (node * node)) (a : str) : Prop :=
    (text tc "alias" = a /\ a <> []) \/ exists n v as_, (n, v) ∈ tc /\ value_of n = lit "aliases" /\ y_strs Y v = Some as_ /\ a ∈ as_.
  Lemma alias_written nss f m t0 t k tl tc a : task_means Y k (YMap tl tc) t0 -> placed_names nss f m t0 t -> a ∈ get_all_aliases t ->
    exists a0, a = qualify nss a0 /\ written_alias tc a0 /\ t_line t = line_of k.
  Proof.
    intros (tl' & tc' & [= <- <-] & _ & Et & _) Hn Ha. destruct (pn_kept _ _ _ _ _ Hn) as (L1 & _). rewrite Et in L1. cbn [t_line] in L1. unfold get_all_aliases in Ha. apply elem_of_app in Ha as [Ha|Ha].
    - rewrite (pn_alias _ _ _ _ _ Hn), Et in Ha. cbn [t_alias] in Ha. destruct (text tc "alias") as [|c0 a0] eqn:E; [apply elem_of_nil in Ha; destruct Ha|].
      exists (c0 :: a0). split; [|split; [left; split; [exact E|discriminate]|exact L1]]. destruct (qualify nss (c0 :: a0)) as [|x y]; [apply elem_of_nil in Ha; destruct Ha|]. apply elem_of_list_singleton in Ha. exact Ha.
    - rewrite (pn_aliases _ _ _ _ _ Hn) in Ha. apply elem_of_list_fmap in Ha as (a0 & -> & Ha). exists a0. split; [reflexivity|]. split; [|exact L1]. right. rewrite Et in Ha. cbn [t_aliases] in Ha. unfold strs_of in Ha.
      destruct (field tc "aliases") as [v|] eqn:E; [|cbn in Ha; apply elem_of_nil in Ha; destruct Ha]. cbn in Ha. destruct (y_strs Y v) as [l|] eqn:Es; [|cbn in Ha; apply elem_of_nil in Ha; destruct Ha]. apply field_in in E as (n & ? & ?). eauto 7.
  Qed.

  (** An error about an alias as it is found. *)
  Definition alias_error (tasks : taskmap) (e : verr) : Prop :=
    match e with
    | VAliasConflict line a n => exists t, tasks !! n = Some t /\ a ∈ get_all_aliases t /\ line = t_line t
    | VDuplicateAlias line a n o => exists t u, tasks !! n = Some t /\ a ∈ get_all_aliases t /\ line = t_line t /\ tasks !! o = Some u /\ a ∈ get_all_aliases u
    | _ => False
    end.
  Lemma alias_pass tasks order : Forall (alias_error tasks) (validate_aliases tasks order).
  Proof.
    unfold validate_aliases. set (inv := fun st : gmap str str * list verr => (forall a n, st.1 !! a = Some n -> exists t, tasks !! n = Some t /\ a ∈ get_all_aliases t) /\ Forall (alias_error tasks) st.2).
    enough (G : inv (fold_left (fun st n => alias_task tasks n st) order (∅, []))) by apply G.
    assert (I0 : inv (∅, [])) by (split; [intros a n H; cbn [fst] in H; rewrite lookup_empty in H; discriminate H|constructor]).
    revert I0. generalize (∅ : gmap str str, @nil verr) as st. induction order as [|n order IH]; intros st Hst; cbn [fold_left]; [exact Hst|]. apply IH. clear IH. unfold alias_task.
    destruct (tasks !! n) as [t|] eqn:Et; [|exact Hst].
    assert (S : forall l, (forall a, a ∈ l -> a ∈ get_all_aliases t) -> forall st, inv st -> inv (fold_left (fun st a => alias_step tasks n (t_line t) a st) l st)).
    { clear st Hst. induction l as [|a l IHl]; intros Hl st Hst; cbn [fold_left]; [exact Hst|]. apply IHl; [intros b Hb; apply Hl; right; exact Hb|]. assert (Ha : a ∈ get_all_aliases t) by (apply Hl; left).
      destruct Hst as [Hm Hs]. unfold alias_step. destruct a as [|c a]; [split; assumption|]. destruct (tm_has tasks (c :: a)).
      { split; [exact Hm|]. apply Forall_app. split; [exact Hs|]. constructor; [|constructor]. exists t. auto. }
      destruct (st.1 !! (c :: a)) as [o|] eqn:Eo.
      { split; [exact Hm|]. apply Forall_app. split; [exact Hs|]. constructor; [|constructor]. destruct (Hm _ _ Eo) as (u & Hu & Hau). exists t, u. auto 6. }
      split; [|exact Hs]. cbn [fst]. intros b m Hb. apply lookup_insert_Some in Hb as [[<- <-]|[_ Hb]]; [eauto|exact (Hm _ _ Hb)]. }
    apply (S (get_all_aliases t) (fun a H => H) st Hst).
  Qed.

  (** What an error about an alias says: a task that has it and the line of its name; for a
      second use also the task that has it first. *)
  Theorem C76_alias_place files orc grow vorc cwd path es line a name e : oracle_ok orc -> vorc_ok vorc ->
    parse (decoded Y files) orc grow vorc cwd path = Err (PInvalid es) -> e ∈ es -> e = VAliasConflict line a name \/ (exists o, e = VDuplicateAlias line a name o) ->
    exists nss f m k tc a0, name = qualify nss m /\ entry_of files (root_of cwd path) nss f m k tc /\ a = qualify nss a0 /\ written_alias tc a0 /\ line = line_of k /\
      forall o, e = VDuplicateAlias line a name o -> exists nss' f' m' k' tc' a0', o = qualify nss' m' /\ entry_of files (root_of cwd path) nss' f' m' k' tc' /\ a = qualify nss' a0' /\ written_alias tc' a0'.
  Proof.
    intros Ho Hv H He Hk. apply parse_invalid in H as (r & Hr & ->). destruct (Hv (pr_tasks r)) as (Ho1 & Ho2 & Ho3 & _).
    assert (Ha : alias_error (pr_tasks r) e).
    { unfold validate_all in He. apply elem_of_app in He as [He|He]; [|apply elem_of_app in He as [He|He]; [|apply elem_of_app in He as [He|He]]].
      - apply in_deps_pass in He as (? & ? & ? & _ & _ & _ & ->); [|exact Ho1]. destruct Hk as [E|[o E]]; discriminate E.
      - apply in_refs_pass in He as (? & ? & ? & ? & _ & _ & _ & _ & ->); [|exact Ho2]. destruct Hk as [E|[o E]]; discriminate E.
      - destruct (run_cycles_post grow (pr_tasks r) _ Ho3) as [[Hg _] _]. rewrite Forall_forall in Hg. destruct (Hg _ He) as (c & now & -> & _). destruct Hk as [E|[o E]]; discriminate E.
      - pose proof (alias_pass (pr_tasks r) (o_aliases (vorc (pr_tasks r)))) as G. rewrite Forall_forall in G. exact (G _ He). }
    assert (W : forall n t b, pr_tasks r !! n = Some t -> b ∈ get_all_aliases t -> exists nss f m k tc a0, n = qualify nss m /\ entry_of files (root_of cwd path) nss f m k tc /\ b = qualify nss a0 /\ written_alias tc a0 /\ t_line t = line_of k).
    { intros n t b Ht Hb. destruct (task_entry _ _ _ _ _ _ Ho Hr Ht) as (nss & f & m & k & tl & tc & t0 & -> & Hen & Hm & Hn). destruct (alias_written _ _ _ _ _ _ _ _ _ Hm Hn Hb) as (a0 & -> & Hw & Hl). exists nss, f, m, k, tc, a0. auto 6. }
    destruct Hk as [->|[o ->]]; cbn [alias_error] in Ha.
    - destruct Ha as (t & Ht & Hb & ->). destruct (W _ _ _ Ht Hb) as (nss & f & m & k & tc & a0 & H1 & H2 & H3 & H4 & H5). exists nss, f, m, k, tc, a0. repeat (split; [assumption|]). intros o E. discriminate E.
    - destruct Ha as (t & u & Ht & Hb & -> & Hu & Hbu). destruct (W _ _ _ Ht Hb) as (nss & f & m & k & tc & a0 & H1 & H2 & H3 & H4 & H5). exists nss, f, m, k, tc, a0. repeat (split; [assumption|]).
      intros o' [= <-]. destruct (W _ _ _ Hu Hbu) as (nss' & f' & m' & k' & tc' & a0' & G1 & G2 & G3 & G4 & _). exists nss', f', m', k', tc', a0'. auto.
  Qed.

  (** The text begins with the file the run was started with. For the tasks of that file the
      place is right. Missing: tasks of included files, for which it is wrong (see below). *)
  Theorem C76_file_partial is_print cwd0 lower h tasks avail files orc grow vorc cwd path es line name by_ : oracle_ok orc -> vorc_ok vorc ->
    parse (decoded Y files) orc grow vorc cwd path = Err (PInvalid es) -> VNotFound line name by_ ∈ es -> root_of cwd path <> [] -> 0 < line ->
    exists rest nss f m k tc, valid_error is_print cwd0 lower h (root_of cwd path) tasks avail (VNotFound line name by_) = relative_path cwd0 (root_of cwd path) ++ lit ":" ++ itoa line ++ lit ": " ++ rest /\
      by_ = qualify nss m /\ entry_of files (root_of cwd path) nss f m k tc /\ (nss = [] -> f = root_of cwd path) /\
      (line = line_of k \/ exists n v, (n, v) ∈ tc /\ (line_in line n \/ line_in line v)).
  Proof.
    intros Ho Hv H He Hp Hl. destruct (C76_reference_place _ _ _ _ _ _ _ _ _ _ Ho Hv H He) as (nss & f & m & k & tc & n & -> & Hen & -> & Hwhere).
    rewrite valid_error_tail by exact Hp. cbn [vtail vargs]. destruct (Nat.ltb_spec 0 line); [|lia].
    eexists _, nss, f, m, k, tc. split.
    - f_equal. unfold num. cbn -[quote did_you_mean itoa_z]. rewrite itoa_num. reflexivity.
    - split; [reflexivity|]. split; [exact Hen|]. split.
      + intros ->. destruct Hen as (via & bf & data & l & c & tl & Hle & _). inversion Hle; subst. reflexivity.
      + destruct Hwhere as [(dk & dv & ds & H1 & _ & _ & _ & ->)|(rk & rl & its & j & c & H1 & _ & H3 & _)].
        * destruct (line_of dk) eqn:E; [left; reflexivity|]. right. exists dk, dv. split; [exact H1|]. left. apply line_here. symmetry. exact E.
        * right. exists rk, (YSeq rl its). split; [exact H1|]. right. clear -H3. revert rl. remember (YMap line c) as n0 eqn:En. induction H3 as [its j n Hj|its k l c' pk pl its' i n Hk Hin Hv He IH]; intros rl; subst.
          -- apply line_seq with (YMap line c); [eapply elem_of_list_lookup_2; exact Hj|]. apply line_here. reflexivity.
          -- apply line_seq with (YMap l c'); [eapply elem_of_list_lookup_2; exact Hk|]. eapply line_val; [exact Hin|]. apply IH. reflexivity.
  Qed.
End Files.
Print Assumptions C76_reference_place.
Print Assumptions C76_alias_place.
Print Assumptions C76_file_partial.

(** The lines of a node. *)
Fixpoint lines (n : node) : list nat :=
  line_of n :: match n with
  | YSeq _ its => flat_map lines its
  | YMap _ c => flat_map (fun kv => match kv with (k, v) => lines k ++ lines v end) c
  | _ => []
  end.
Lemma line_in_lines l n : line_in l n -> In l (lines n).
Proof.
  induction 1 as [n ->|l' its n Hin _ IH|l' c k v Hin _ IH|l' c k v Hin _ IH].
  - destruct n; left; reflexivity.
  - right. apply in_flat_map. exists n. split; [apply elem_of_list_In; exact Hin|exact IH].
  - right. apply in_flat_map. exists (k, v). split; [apply elem_of_list_In; exact Hin|]. apply in_or_app. auto.
  - right. apply in_flat_map. exists (k, v). split; [apply elem_of_list_In; exact Hin|]. apply in_or_app. auto.
Qed.

(** A reference in an included file: the text names the root file, with a line that the
    root file does not have. *)
Definition root_doc : list (node * node) :=
  [ kv 1 "includes" (mp 2 [kv 2 "s" (mp 3 [kv 3 "babfile" (sc 3 "s.yml")])]); kv 4 "tasks" (mp 5 [kv 5 "all" (mp 6 [kv 6 "deps" (seq 6 [sc 6 "s:lib"])])])].
Definition sub_doc : list (node * node) :=
  [ kv 1 "tasks" (mp 2
      [ kv 2 "lib" (mp 3
          [ kv 3 "aliases" (seq 3 [sc 3 "l"])
          ; kv 4 "run" (seq 5
              [ mp 5 [kv 5 "cmd" (sc 5 "make")]
              ; mp 6 [kv 6 "parallel" (seq 7 [mp 7 [kv 7 "cmd" (sc 7 "a")]; mp 9 [kv 8 "silent" (sc 8 "true"); kv 9 "task" (sc 9 "mising")]])]])])])].
Definition two_files : gmap str str := {[ lit "/r/Babfile" := lit "a"; lit "/r/s.yml" := lit "b" ]}.
Definition Ysub : yaml := Y2 (mp 1 root_doc) (mp 1 sub_doc).
Lemma sub_entry : exists k tc, entry_of Ysub two_files (lit "/r/Babfile") [lit "s"] (lit "/r/s.yml") (lit "lib") k tc.
Proof.
  destruct (decoded Ysub two_files !! lit "/r/Babfile") as [[b0|]|] eqn:E0; [|vm_compute in E0; discriminate E0..].
  destruct (decoded Ysub two_files !! lit "/r/s.yml") as [[b1|]|] eqn:E1; [|vm_compute in E1; discriminate E1..].
  eexists _, _, ([] ++ [b1]), b1, (lit "b"), 1, sub_doc, 3. split; [|split; [vm_compute; reflexivity|]; split; [vm_compute; reflexivity|]; split; [apply elem_of_list_here|reflexivity]].
  eapply leads_step with (p := lit "s.yml") (path' := lit "/r/s.yml"); [exact E0| |vm_compute; reflexivity|exact E1|constructor; exact E1].
  assert (X : match decoded Ysub two_files !! lit "/r/Babfile" with Some (Some b) => f_includes b !! lit "s" | _ => None end = Some (lit "s.yml")) by (vm_compute; reflexivity). rewrite E0 in X. exact X.
Qed.
Theorem C76_included_file_refuted : exists Y files cwd path line name nss f m k tc root_data l c,
  parse (decoded Y files) fwd go_grow vfwd cwd path = Err (PInvalid [VNotFound line name (qualify nss m)]) /\ entry_of Y files (root_of cwd path) nss f m k tc /\
  files !! root_of cwd path = Some root_data /\ y_parse Y root_data = YDoc (YMap l c) /\ ~ line_in line (YMap l c) /\
  forall is_print lower h tasks avail, exists rest,
    valid_error is_print (Some cwd) lower h (root_of cwd path) tasks avail (VNotFound line name (qualify nss m)) = lit "Babfile:" ++ itoa line ++ rest.
Proof.
  destruct sub_entry as (k & tc & He). exists Ysub, two_files, (lit "/r"), (lit "Babfile"), 9, (lit "s:mising"), [lit "s"], (lit "/r/s.yml"), (lit "lib"), k, tc, (lit "a"), 1, root_doc.
  split; [vm_compute; reflexivity|]. split; [exact He|]. split; [vm_compute; reflexivity|]. split; [vm_compute; reflexivity|]. split.
  - intros H. apply line_in_lines in H. vm_compute in H. repeat (destruct H as [H|H]; [discriminate H|]). exact H.
  - intros is_print lower h tasks avail. rewrite valid_error_tail by discriminate. replace (relative_path (Some (lit "/r")) (root_of (lit "/r") (lit "Babfile"))) with (lit "Babfile") by (vm_compute; reflexivity).
    eexists. cbn [vtail vargs Nat.ltb Nat.leb]. unfold num. cbn -[quote did_you_mean itoa]. rewrite itoa_num. reflexivity.
Qed.
Print Assumptions C76_included_file_refuted.

(** A reference in a block of the root file. *)
Definition one_file : gmap str str := {[ lit "/r/Babfile" := lit "b" ]}.
Example C76_met : parse (decoded Ysub one_file) fwd go_grow vfwd (lit "/r") (lit "Babfile") = Err (PInvalid [VNotFound 9 (lit "mising") (lit "lib")]) /\
  (exists es, unmarshal_node Y0 (YMap 1 block_doc) = Err (EInvalid es) /\ es = [(7, DItem (lit "build") 1 IDir)]).
Proof. split; [vm_compute; reflexivity|]. eexists. split; vm_compute; reflexivity. Qed.
(** Two tasks with one alias, one of them included. *)
Definition alias_root : list (node * node) :=
  [ kv 1 "includes" (mp 2 [kv 2 "s" (mp 3 [kv 3 "babfile" (sc 3 "s.yml")])]); kv 4 "tasks" (mp 5 [kv 5 "all" (mp 6 [kv 6 "alias" (sc 6 "s:l")])])].
Definition alias_sub : list (node * node) := [ kv 1 "tasks" (mp 2 [kv 2 "lib" (mp 3 [kv 3 "aliases" (seq 3 [sc 3 "l"])])])].
Example C76_alias_met : parse (decoded (Y2 (mp 1 alias_root) (mp 1 alias_sub)) two_files) fwd go_grow vfwd (lit "/r") (lit "Babfile") = Err (PInvalid [VDuplicateAlias 2 (lit "s:l") (lit "s:lib") (lit "all")]) \/
  parse (decoded (Y2 (mp 1 alias_root) (mp 1 alias_sub)) two_files) fwd go_grow vfwd (lit "/r") (lit "Babfile") = Err (PInvalid [VDuplicateAlias 5 (lit "s:l") (lit "all") (lit "s:lib")]).
Proof. first [left; vm_compute; reflexivity|right; vm_compute; reflexivity]. Qed.
