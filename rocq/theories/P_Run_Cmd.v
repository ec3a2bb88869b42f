(** Theorems about what a command is given: C03, C31-C34. *)
From Verif Require Import Base Interp_Model Interp_Spec Interp_Proof Interp_Escape Vars_Proof Cond_Model Types_Model Path_Model Path_Proof
  Include_Proof Run_Model Run_Logic Run_Spec Run_Inv Run_Proof Run_Facts Run_Own Run_Term Run_Seq Run_Drive P_Run.

(** ** Vocabulary of the statements *)

(** The first value that is set decides, else the default. *)
Inductive decided (dflt : bool) : list (option bool) -> bool -> Prop :=
| dec_default : decided dflt [] dflt
| dec_set b l : decided dflt (Some b :: l) b
| dec_unset l b : decided dflt l b -> decided dflt (None :: l) b.

(** The settings of the task references and blocks around, innermost first, up to
    the dependency that started afresh. *)
Fixpoint enclosing (of_ref : task_run -> option bool) (of_block : par_opts -> option bool) (s : scope) : list (option bool) :=
  match s with
  | [] => []
  | FDep _ :: _ => []
  | FRef _ _ r :: s' => of_ref r :: enclosing of_ref of_block s'
  | FBlock _ _ o :: s' => of_block o :: enclosing of_ref of_block s'
  | FPre _ _ :: s' => enclosing of_ref of_block s'
  end.

(** What a process finds in its environment under a name: the last entry counts. *)
Definition entry (n v : str) : str := n ++ "="%char :: v.
Definition process_sees (environ : list str) (n : str) (v : option str) : Prop :=
  match v with
  | Some v => exists l1 l2, environ = l1 ++ entry n v :: l2 /\ forall v', entry n v' ∉ l2
  | None => forall v', entry n v' ∉ environ
  end.
Definition env_name (n : str) : Prop := "="%char ∉ n.
Definition env_names (m : smap) : Prop := forall n, is_Some (smap_get m !! n) -> env_name n.

(** bab's own additions for a command whose output a block collects. *)
Definition hint (collected nocolor : bool) (n : str) : option str :=
  if collected then
    if nocolor then
      if decide (n = lit "TERM") then Some (lit "dumb") else if decide (n = lit "NO_COLOR") then Some (lit "1") else None
    else if decide (n = lit "FORCE_COLOR") then Some (lit "1") else None
  else None.

(** The first of three texts that is not empty. *)
Inductive first_given : list str -> str -> Prop :=
| fg_none : first_given [] []
| fg_here d l : d <> [] -> first_given (d :: l) d
| fg_later d l : first_given l d -> first_given ([] :: l) d.

(** A text without templates. *)
Definition plain (w : str) : Prop := nul_free w /\ forall a b, w <> a ++ lit "${{" ++ b.
Definition first_some (l : list (option str)) : option str := head (omap id l).

(** ** Small facts *)
Lemma decided_fun d l b b' : decided d l b -> decided d l b' -> b = b'.
Proof. induction 1; inversion 1; subst; auto. Qed.
Lemma decided_first d l : decided d l (default d (first_non_nil l)).
Proof. induction l as [|[b|] l IH]; simpl; constructor. exact IH. Qed.
Lemma first_non_nil_app l l' : first_non_nil (l ++ l') = match first_non_nil l with Some b => Some b | None => first_non_nil l' end.
Proof. induction l as [|[b|] l IH]; simpl; auto. Qed.
Lemma override_enclosing f g s : override f g s = first_non_nil (enclosing f g s).
Proof. induction s as [|[p|p pa r|p pa o|p pa] s IH]; simpl; [reflexivity|reflexivity|rewrite IH; destruct (f r); reflexivity|rewrite IH; destruct (g o); reflexivity|exact IH]. Qed.
Lemma decided_with d f g a s l : decided d (a :: enclosing f g s ++ l) (default d (first_non_nil (a :: override f g s :: l))).
Proof.
  replace (first_non_nil (a :: override f g s :: l)) with (first_non_nil (a :: enclosing f g s ++ l)); [apply decided_first|].
  destruct a; [reflexivity|]. simpl. rewrite first_non_nil_app, override_enclosing. destruct (first_non_nil (enclosing f g s)); reflexivity.
Qed.

Lemma item_at_fun t pa it it' : item_at t pa it -> item_at t pa it' -> it = it'.
Proof.
  destruct pa as [|i [|j [|? ?]]]; simpl; try contradiction; [congruence|].
  intros (o & items & H1 & H2) (o' & items' & H1' & H2'). congruence.
Qed.
Lemma item_scope_fun T t pa s sc sc' : item_scope T t pa s sc -> item_scope T t pa s sc' -> sc = sc'.
Proof.
  destruct pa as [|i [|j [|? ?]]]; simpl; try contradiction; [congruence|].
  intros (o & items & H1 & ->) (o' & items' & H1' & ->). congruence.
Qed.

Lemma entry_inj n n' v v' : env_name n -> env_name n' -> entry n v = entry n' v' -> n = n' /\ v = v'.
Proof.
  unfold entry, env_name. revert n'. induction n as [|c n IH]; intros [|c' n'] H H' E.
  - injection E as E. auto.
  - injection E as E1 E2. exfalso. apply H'. rewrite <- E1. left.
  - injection E as E1 E2. exfalso. apply H. rewrite E1. left.
  - injection E as E1 E2. subst c'. destruct (IH n') as [-> ->]; [intros Hin; apply H; right; exact Hin|intros Hin; apply H'; right; exact Hin|exact E2|auto].
Qed.

Lemma interp_env_get k vars env out n : interp_env k vars env out ->
  match env !! n with
  | Some w => exists v, interpolate (k_getenv k) vars w = Ok v /\ out !! n = Some v
  | None => out !! n = None
  end.
Proof.
  intros [[-> ->]|(order & Hp & Hi)]; [rewrite !lookup_empty; reflexivity|].
  assert (H : (n ∈ order -> exists v, interpolate (k_getenv k) vars (default [] (env !! n)) = Ok v /\ out !! n = Some v) /\ (n ∉ order -> out !! n = None)).
  { clear Hp. revert out Hi. induction order as [|key order IH]; simpl; intros out Hi.
    - injection Hi as <-. split; [intros H; inversion H|]. intros _. apply lookup_empty.
    - destruct (interpolate (k_getenv k) vars (default [] (env !! key))) as [v|e] eqn:Ei; [|discriminate].
      destruct (interpolate_env (k_getenv k) vars env order) as [m|e] eqn:Er; [|discriminate]. injection Hi as <-.
      destruct (IH m eq_refl) as [H1 H2]. destruct (decide (key = n)) as [->|Hne].
      + rewrite lookup_insert. split; [eauto|]. intros H. exfalso. apply H. left.
      + rewrite lookup_insert_ne by exact Hne. split.
        * intros H. apply elem_of_cons in H as [E|H]; [congruence|]. auto.
        * intros H. apply H2. intros H'. apply H. right. exact H'. }
  assert (Hin : n ∈ order <-> is_Some (env !! n)).
  { rewrite Hp. rewrite elem_of_list_fmap. split.
    - intros ([a b] & -> & Hab). apply elem_of_map_to_list in Hab. eauto.
    - intros [w Hw]. exists (n, w). split; [reflexivity|]. apply elem_of_map_to_list. exact Hw. }
  destruct (env !! n) as [w|] eqn:E; apply H; [apply Hin; eauto|].
  intros Hn. apply Hin in Hn as [w Hw]. discriminate.
Qed.

Lemma process_snoc l n v kv : (forall v', kv <> entry n v') -> process_sees (l ++ [kv]) n v <-> process_sees l n v.
Proof.
  intros Hno. destruct v as [v|]; simpl.
  - split.
    + intros (l1 & l2 & E & H). destruct l2 as [|y l2 _] using rev_ind.
      * apply app_inj_tail in E as [_ E]. exfalso. exact (Hno _ E).
      * rewrite app_comm_cons, app_assoc in E. apply app_inj_tail in E as [-> _]. exists l1, l2. split; [reflexivity|].
        intros v' Hin. apply (H v'). apply elem_of_app. left. exact Hin.
    + intros (l1 & l2 & -> & H). exists l1, (l2 ++ [kv]). split; [rewrite <- app_assoc; reflexivity|].
      intros v' Hin. apply elem_of_app in Hin as [Hin|Hin]; [exact (H v' Hin)|]. apply elem_of_list_singleton in Hin. exact (Hno _ (eq_sym Hin)).
  - split; intros H v' Hin.
    + apply (H v'). apply elem_of_app. left. exact Hin.
    + apply elem_of_app in Hin as [Hin|Hin]; [exact (H v' Hin)|]. apply elem_of_list_singleton in Hin. exact (Hno _ (eq_sym Hin)).
Qed.
Lemma process_app l l' n v : (forall kv, kv ∈ l' -> forall v', kv <> entry n v') -> process_sees (l ++ l') n v <-> process_sees l n v.
Proof.
  induction l' as [|kv l' IH] using rev_ind; intros Hno; [rewrite app_nil_r; reflexivity|].
  rewrite app_assoc, process_snoc; [|apply Hno; apply elem_of_app; right; left].
  apply IH. intros kv' H. apply Hno. apply elem_of_app. left. exact H.
Qed.
Lemma process_own l l' n v : (forall kv, kv ∈ l' -> forall v', kv <> entry n v') -> process_sees (l ++ entry n v :: l') n (Some v).
Proof. intros H. exists l, l'. split; [reflexivity|]. intros v' Hin. exact (H _ Hin v' eq_refl). Qed.
Lemma process_fun l n v v' : process_sees l n v -> process_sees l n v' -> v = v'.
Proof.
  induction l as [|kv l IH] using rev_ind; intros H H'.
  - destruct v as [v|]; [destruct H as ([|? ?] & ? & E & _); discriminate|]. destruct v' as [v'|]; [destruct H' as ([|? ?] & ? & E & _); discriminate|reflexivity].
  - assert (D : (exists w, kv = entry n w) \/ forall w, kv <> entry n w).
    { destruct (strip_prefix (n ++ ["="%char]) kv) as [w|] eqn:E.
      - apply strip_prefix_Some in E. left. exists w. rewrite E, <- app_assoc. reflexivity.
      - right. intros w Ew. rewrite strip_prefix_None in E. apply (E w). rewrite Ew, <- app_assoc. reflexivity. }
    destruct D as [(w & ->)|D].
    + assert (Hone : forall u, process_sees (l ++ [entry n w]) n u -> u = Some w); [|rewrite (Hone _ H), (Hone _ H'); reflexivity].
      clear. intros [u|] Hu.
      * destruct Hu as (l1 & l2 & E & Hn). destruct l2 as [|y l2 _] using rev_ind.
        -- apply app_inj_tail in E as [_ E]. unfold entry in E. apply app_inv_head in E. injection E as ->. reflexivity.
        -- rewrite app_comm_cons, app_assoc in E. apply app_inj_tail in E as [_ <-]. exfalso. apply (Hn w). apply elem_of_app. right. left.
      * exfalso. apply (Hu w). apply elem_of_app. right. left.
    + rewrite process_snoc in H by exact D. rewrite process_snoc in H' by exact D. auto.
Qed.

(** The environment of a command, by name. *)
Lemma environ_sees environ piped nocolor env order n :
  order ≡ₚ (map_to_list env).*1 -> env_name n -> (forall key, is_Some (env !! key) -> env_name key) ->
  match env !! n with
  | Some v => process_sees (command_environ environ piped nocolor env order) n (Some v)
  | None =>
      match hint piped nocolor n with
      | Some v => process_sees (command_environ environ piped nocolor env order) n (Some v)
      | None => forall v, process_sees (command_environ environ piped nocolor env order) n v <-> process_sees environ n v
      end
  end.
Proof.
  intros Hp Hn Hkeys. unfold command_environ.
  assert (Hin : forall key, key ∈ order <-> is_Some (env !! key)).
  { intros key. rewrite Hp. rewrite elem_of_list_fmap. split.
    - intros ([a b] & -> & H). apply elem_of_map_to_list in H. eauto.
    - intros [w Hw]. exists (key, w). split; [reflexivity|]. apply elem_of_map_to_list. exact Hw. }
  assert (Hnd : NoDup order) by (rewrite Hp; apply NoDup_fst_map_to_list).
  assert (Hother : forall l, n ∉ l -> (forall key, key ∈ l -> env_name key) ->
            forall kv, kv ∈ map (fun key => key ++ "="%char :: default [] (env !! key)) l -> forall v', kv <> entry n v').
  { intros l Hnl Hl kv H v' E. apply elem_of_list_In, in_map_iff in H as (key & <- & Hk). apply elem_of_list_In in Hk.
    apply entry_inj in E as [-> _]; [exact (Hnl Hk)|apply Hl; exact Hk|exact Hn]. }
  destruct (env !! n) as [v|] eqn:E.
  - assert (Ho : n ∈ order) by (apply Hin; eauto). apply elem_of_list_split in Ho as (o1 & o2 & Ho). subst order.
    rewrite map_app. simpl. rewrite E. simpl. rewrite !app_assoc. apply process_own. apply Hother.
    + apply NoDup_app in Hnd as (_ & _ & Hnd). apply NoDup_cons in Hnd as [Hnd _]. exact Hnd.
    + intros key Hk. apply Hkeys, Hin. apply elem_of_app. right. right. exact Hk.
  - assert (Hrest : forall l v, process_sees (l ++ map (fun key => key ++ "="%char :: default [] (env !! key)) order) n v <-> process_sees l n v).
    { intros l v. apply process_app. apply Hother; [|intros key Hk; apply Hkeys, Hin; exact Hk].
      intros H. apply Hin in H as [w Hw]. congruence. }
    assert (Hlit : forall s w, env_name s -> n <> s -> forall v', entry s w <> entry n v').
    { intros s w Hs Hne v' Ee. apply entry_inj in Ee as [Ee _]; [congruence|exact Hs|exact Hn]. }
    assert (N1 : env_name (lit "TERM")) by (apply (bool_decide_unpack _); vm_compute; exact I).
    assert (N2 : env_name (lit "NO_COLOR")) by (apply (bool_decide_unpack _); vm_compute; exact I).
    assert (N3 : env_name (lit "FORCE_COLOR")) by (apply (bool_decide_unpack _); vm_compute; exact I).
    unfold hint. destruct piped.
    2:{ intros v. change ([] ++ ?l) with l. apply Hrest. }
    destruct nocolor.
    + change [lit "TERM=dumb"; lit "NO_COLOR=1"] with [entry (lit "TERM") (lit "dumb"); entry (lit "NO_COLOR") (lit "1")].
      destruct (decide (n = lit "TERM")) as [->|H1].
      { rewrite app_assoc. apply Hrest. apply process_own. intros kv H. apply elem_of_list_singleton in H as ->. apply Hlit; [exact N2|discriminate]. }
      destruct (decide (n = lit "NO_COLOR")) as [->|H2].
      { rewrite app_assoc. apply Hrest. change [entry (lit "TERM") (lit "dumb"); entry (lit "NO_COLOR") (lit "1")] with ([entry (lit "TERM") (lit "dumb")] ++ [entry (lit "NO_COLOR") (lit "1")]).
        rewrite app_assoc. apply process_own. intros kv H. inversion H. }
      intros v. rewrite app_assoc, Hrest. apply process_app. intros kv H.
      apply elem_of_cons in H as [->|H]; [apply Hlit; assumption|]. apply elem_of_list_singleton in H as ->. apply Hlit; assumption.
    + change [lit "FORCE_COLOR=1"] with [entry (lit "FORCE_COLOR") (lit "1")].
      destruct (decide (n = lit "FORCE_COLOR")) as [->|H1].
      { rewrite app_assoc. apply Hrest. apply process_own. intros kv H. inversion H. }
      intros v. rewrite app_assoc, Hrest. apply process_app. intros kv H. apply elem_of_list_singleton in H as ->. apply Hlit; assumption.
Qed.

Lemma plain_escape w : (forall a b, w <> a ++ lit "${{" ++ b) -> escape w = w.
Proof.
  induction w as [|c w IH]; intros H; [reflexivity|]. rewrite escape_chr.
  - rewrite IH; [reflexivity|]. intros a b E. apply (H (c :: a) b). rewrite E. reflexivity.
  - apply strip_prefix_None. intros r E. apply (H [] r). exact E.
Qed.

Section Theorems.
  Context (k : config) (tasks : taskmap) (root : str).
  Notation dry := (k_dry k).
  Notation getenv := (k_getenv k).
  Notation run_of := (run_of k tasks root).
  Notation good := (good (k_vars k) (step_ok k tasks root)).
  Context (Hkeyed : keyed tasks).

  Lemma start_facts h p x b : run_of h p -> OStart x b ∈ h ->
    exists past, happened h (OStart x b) past /\ past `suffix_of` h /\ good past /\ started k tasks past x.
  Proof.
    intros Hr Hin. pose proof (run_good k tasks root Hkeyed _ _ Hr) as Hg. destruct (good_in _ _ _ _ Hg Hin) as (h0 & Hs & Hg0 & _ & [_ HB]).
    exists h0. split; [exact Hs|]. split; [etransitivity; [apply suffix_cons_self|exact Hs]|]. split; [exact Hg0|exact HB].
  Qed.

  Lemma claim_unique h T s s' : good h -> OClaim T s Fresh ∈ h -> OClaim T s' Fresh ∈ h -> s = s'.
  Proof.
    intros Hg H1 H2. destruct (in_order _ _ _ H1 H2) as [E|[(h2 & A & B)|(h2 & A & B)]]; [congruence| |]; exfalso;
      apply (good_suffix _ _ _ _ A) in Hg; apply good_tail in Hg as (_ & Ha & _); simpl in Ha; apply claim_claimed in B; congruence.
  Qed.

  Lemma runs_item h T t pa it : tasks !! T = Some t -> runs k tasks h T pa it -> item_at t pa it.
  Proof. intros Ht (t' & Ht' & H & _). congruence. Qed.

  (** ** C32 *)
  (** For every command: what was set on the command, on the references and blocks
      around it, on its task, globally decides whether its output is shown and
      whether it is echoed first. *)
  Theorem C32_precedence h p x b past : run_of h p -> happened h (OStart x b) past ->
    exists t c s silent, tasks !! x_task x = Some t /\ item_at t (x_path x) (RCmd c) /\
      OClaim (x_task x) s Fresh ∈ past /\ reached tasks root (x_task x) s /\ item_scope (x_task x) t (x_path x) s (x_scope x) /\
      decided true (c_output c :: enclosing r_output q_output (x_scope x) ++ [t_output t; k_output k]) (x_show x) /\
      decided false (c_silent c :: enclosing r_silent q_silent (x_scope x) ++ [t_silent t; k_silent k]) silent /\
      (silent = false -> OEcho (x_task x) (x_path x) (x_cmd x) (x_out x) ∈ past) /\
      (silent = true -> forall cmd d, OEcho (x_task x) (x_path x) cmd d ∉ h) /\
      (x_show x = false -> x_stdin x = false).
  Proof.
    intros Hr Hh. pose proof (run_good k tasks root Hkeyed _ _ Hr) as Hg. pose proof (happened_good k tasks root Hkeyed _ _ _ _ Hr Hh) as Hg1.
    apply good_tail in Hg1 as (Hg1 & _ & [_ HB]). simpl in HB.
    assert (Hs : past `suffix_of` h) by (etransitivity; [apply suffix_cons_self|exact Hh]).
    destruct (st_what _ _ _ _ HB) as (t & c & s & vars & tenv & cenv & order & Ht & Hruns & Hcl & Hsc & _ & _ & _ & _ & _ & _ & _ & _ & Hshow & Hstdin & Hecho).
    destruct (good_in _ _ _ _ Hg1 Hcl) as (h1 & _ & _ & _ & [_ (_ & Hreach)]).
    exists t, c, s, (is_silent [c_silent c; override_silent (x_scope x); t_silent t; k_silent k]).
    split; [exact Ht|]. split; [eapply runs_item; eassumption|]. split; [exact Hcl|]. split; [exact Hreach|]. split; [exact Hsc|].
    split; [rewrite Hshow; apply decided_with|]. split; [apply decided_with|]. split; [exact Hecho|]. split; [|rewrite Hstdin; intros ->; apply andb_false_r].
    intros Hsil cmd d He. destruct (good_in _ _ _ _ Hg He) as (h2 & Hs2 & Hg2 & _ & [_ HE]).
    destruct HE as (_ & _ & _ & t' & c' & s' & sc' & vars' & Ht' & Hr' & Hcl' & Hsc' & _ & _ & Hns).
    rewrite Ht in Ht'. injection Ht' as <-.
    assert (RCmd c = RCmd c') as E by (eapply item_at_fun; [eapply runs_item; eassumption|eapply runs_item; eassumption]). injection E as <-.
    assert (s = s') as <- by (eapply claim_unique; [exact Hg|eapply suffix_elem; [exact Hs|exact Hcl]|eapply suffix_elem; [etransitivity; [apply suffix_cons_self|exact Hs2]|exact Hcl']]).
    rewrite (item_scope_fun _ _ _ _ _ _ Hsc' Hsc) in Hns. congruence.
  Qed.

  (** The line that announces a task is printed only if the task is not silent. *)
  Theorem C32_header_not_silent h p T m d past : run_of h p -> happened h (OHeader T m d) past ->
    exists t s, tasks !! T = Some t /\ OClaim T s Fresh ∈ past /\ reached tasks root T s /\
      decided false (enclosing r_silent q_silent s ++ [t_silent t; k_silent k]) false.
  Proof.
    intros Hr Hh. pose proof (happened_good k tasks root Hkeyed _ _ _ _ Hr Hh) as Hg1.
    apply good_tail in Hg1 as (Hg1 & _ & [_ HB]). destruct HB as (_ & _ & t & s & Ht & Hcl & Hns).
    destruct (good_in _ _ _ _ Hg1 Hcl) as (h1 & _ & _ & _ & [_ (_ & Hreach)]). exists t, s. split; [exact Ht|]. split; [exact Hcl|]. split; [exact Hreach|].
    assert (H := decided_with false r_silent q_silent None s [t_silent t; k_silent k]). inversion H as [| |l b' H' E1 E2]; subst.
    change (first_non_nil (None :: override r_silent q_silent s :: [t_silent t; k_silent k])) with (first_non_nil [override_silent s; t_silent t; k_silent k]) in H'.
    unfold is_silent in Hns. rewrite Hns in H'. exact H'.
  Qed.

  (** ** C34 *)
  Lemma first_dir_given a b c : first_given [a; b; c] (first_dir a b c).
  Proof. unfold first_dir. destruct a; [apply fg_later|apply fg_here; discriminate]. destruct b; [apply fg_later|apply fg_here; discriminate]. destruct c; [apply fg_later; constructor|apply fg_here; discriminate]. Qed.

  (** [q]: the directory of the file that defines the task. *)
  Theorem C34_working_directory h p x b past : run_of h p -> happened h (OStart x b) past ->
    exists t c vars d d', tasks !! x_task x = Some t /\ item_at t (x_path x) (RCmd c) /\ sees k past t (x_path x) vars /\
      first_given [c_dir c; t_dir t; k_dir k] d /\ (d = [] /\ d' = [] \/ d <> [] /\ interpolate getenv vars d = Ok d' /\ OStat (x_task x) (x_path x) (x_dir x) SDir ∈ past) /\
      forall q n, t_source t = q ++ slash :: n -> slash ∉ n -> is_abs (q ++ [slash]) = true -> x_dir x = spelled (place_from q d').
  Proof.
    intros Hr Hh. pose proof (happened_good k tasks root Hkeyed _ _ _ _ Hr Hh) as Hg1.
    apply good_tail in Hg1 as (Hg1 & _ & [_ HB]). simpl in HB.
    destruct (st_what _ _ _ _ HB) as (t & c & s & vars & tenv & cenv & order & Ht & Hruns & _ & _ & Hsees & _ & _ & _ & _ & _ & _ & Hdir & _).
    assert (Hbase : forall q n, t_source t = q ++ slash :: n -> slash ∉ n -> is_abs (q ++ [slash]) = true -> dir (t_source t) = spelled (place_of q)).
    { intros q n -> Hn Ha. apply dir_place; assumption. }
    exists t, c, vars, (first_dir (c_dir c) (t_dir t) (k_dir k)).
    destruct Hdir as [[Hd Hx]|[(Hd & d3 & Hi & Hx) Hst]].
    - exists []. split; [exact Ht|]. split; [eapply runs_item; eassumption|]. split; [exact Hsees|]. split; [apply first_dir_given|]. split; [left; auto|].
      intros q n E Hn Ha. rewrite Hx, (Hbase q n E Hn Ha). unfold place_from. simpl. rewrite walk_nil. reflexivity.
    - exists d3. split; [exact Ht|]. split; [eapply runs_item; eassumption|]. split; [exact Hsees|]. split; [apply first_dir_given|].
      split; [right; split; [exact Hd|]; split; [exact Hi|]; rewrite <- (Hkeyed _ _ Ht); exact Hst|].
      intros q n E Hn Ha. rewrite Hx, (Hbase q n E Hn Ha). rewrite resolve_place by reflexivity. unfold place_from.
      rewrite spelled_place by apply place_proper. reflexivity.
  Qed.

  (** A directory that is not there: nothing is run for that item, and the run fails. *)
  Theorem C34_bad_directory_runs_nothing h p T pa d s : run_of h p -> OStat T pa d s ∈ h -> s <> SDir ->
    (forall x b, OStart x b ∈ h -> x_task x = T -> x_path x <> pa) /\ (forall r, p = Ret r -> r <> None).
  Proof.
    intros Hr Hst Hs. pose proof (run_good k tasks root Hkeyed _ _ Hr) as Hg. split.
    - intros x b Hin HT Hpa. destruct (start_facts _ _ _ _ Hr Hin) as (past & _ & Hsuf & _ & HB).
      destruct (st_what _ _ _ _ HB) as (t & c & sc & vars & tenv & cenv & order & Ht & Hruns & _ & _ & _ & _ & _ & _ & _ & _ & _ & Hdir & _).
      destruct (good_in _ _ _ _ Hg Hst) as (h2 & Hs2 & _ & _ & [_ (_ & _ & _ & t' & c' & vars' & Ht' & Hr' & _ & Hgiven & _)]).
      subst T pa. rewrite Ht in Ht'. injection Ht' as <-.
      assert (RCmd c = RCmd c') as E by (eapply item_at_fun; [eapply runs_item; eassumption|eapply runs_item; eassumption]). injection E as <-.
      destruct Hdir as [[Hd _]|[_ Hok]]; [contradiction|]. rewrite (Hkeyed _ _ Ht) in Hok. apply (suffix_elem _ _ _ Hsuf) in Hok.
      assert (OStat (x_task x) (x_path x) d s = OStat (x_task x) (x_path x) (x_dir x) SDir) as E; [|congruence].
      eapply (same k tasks root); [exact Hg|exact Hst|exact Hok| |]; intros h3 _ [_ (_ & _ & Hn & _)]; apply Hn.
    - intros r ->. eapply C23_other_failures; [exact Hr|]. right. left. exists T, pa, d, s. auto.
  Qed.

  (** ** C33 *)
  Theorem C33_environment_precedence_partial h p x b past : run_of h p -> happened h (OStart x b) past ->
    exists t c vars0 vars, tasks !! x_task x = Some t /\ item_at t (x_path x) (RCmd c) /\
      sees k past t [] vars0 /\ sees k past t (x_path x) vars /\
      (env_names (k_env k) -> env_names (t_env t) -> env_names (c_env c) -> forall n, env_name n ->
       match smap_get (c_env c) !! n, smap_get (t_env t) !! n, smap_get (k_env k) !! n with
       | Some w, _, _ => exists v, interpolate getenv vars w = Ok v /\ process_sees (x_environ x) n (Some v)
       | None, Some w, _ | None, None, Some w =>
           exists w' v, interpolate getenv vars0 w = Ok w' /\ interpolate getenv vars w' = Ok v /\ process_sees (x_environ x) n (Some v)
       | None, None, None =>
           match hint (in_block (x_scope x) && x_show x) (no_color (x_scope x)) n with
           | Some v => process_sees (x_environ x) n (Some v)
           | None => forall v, process_sees (x_environ x) n v <-> process_sees (k_environ k) n v
           end
       end).
  Proof.
    intros Hr Hh. pose proof (happened_good k tasks root Hkeyed _ _ _ _ Hr Hh) as Hg1.
    apply good_tail in Hg1 as (Hg1 & _ & [_ HB]). simpl in HB.
    destruct (st_what _ _ _ _ HB) as (t & c & s & vars & tenv & cenv & order & Ht & Hruns & _ & _ & Hsees & _ & _ & (vars0 & Hs0 & Htenv) & Hcenv & Hord & Henv & _).
    exists t, c, vars0, vars. split; [exact Ht|]. split; [eapply runs_item; eassumption|]. split; [exact Hs0|]. split; [exact Hsees|].
    intros Nk Nt Nc n Hn.
    assert (Hmerged : forall key, match smap_get (merge_maps (Some tenv) (c_env c)) !! key with
              | Some w => exists v, interpolate getenv vars w = Ok v /\ cenv !! key = Some v | None => cenv !! key = None end)
      by (intros key; apply interp_env_get; exact Hcenv).
    assert (Htask : forall key, match smap_get (merge_maps (k_env k) (t_env t)) !! key with
              | Some w => exists v, interpolate getenv vars0 w = Ok v /\ tenv !! key = Some v | None => tenv !! key = None end)
      by (intros key; apply interp_env_get; exact Htenv).
    assert (Hkeys : forall key, is_Some (cenv !! key) -> env_name key).
    { intros key [v Hv]. specialize (Hmerged key). specialize (Htask key). rewrite merge_maps_get in Hmerged, Htask.
      change (smap_get (Some tenv)) with tenv in Hmerged.
      destruct (smap_get (c_env c) !! key) eqn:E1; [apply Nc; eauto|]. destruct (smap_get (t_env t) !! key) eqn:E2; [apply Nt; eauto|].
      destruct (smap_get (k_env k) !! key) eqn:E3; [apply Nk; eauto|]. rewrite Htask in Hmerged. congruence. }
    pose proof (environ_sees (k_environ k) (in_block (x_scope x) && x_show x) (no_color (x_scope x)) cenv order n Hord Hn Hkeys) as HP.
    rewrite <- Henv in HP. specialize (Hmerged n). specialize (Htask n). rewrite merge_maps_get in Hmerged, Htask.
    change (smap_get (Some tenv)) with tenv in Hmerged.
    destruct (smap_get (c_env c) !! n) as [w|]; [destruct Hmerged as (v & H1 & H2); rewrite H2 in HP; eauto|].
    destruct (smap_get (t_env t) !! n) as [w|]; [|destruct (smap_get (k_env k) !! n) as [w|]].
    - destruct Htask as (w' & H1 & H2). rewrite H2 in Hmerged. destruct Hmerged as (v & H3 & H4). rewrite H4 in HP. eauto.
    - destruct Htask as (w' & H1 & H2). rewrite H2 in Hmerged. destruct Hmerged as (v & H3 & H4). rewrite H4 in HP. eauto.
    - rewrite Htask in Hmerged. rewrite Hmerged in HP. exact HP.
  Qed.

  (** Values without templates arrive as they were written. *)
  Theorem C33_plain_values_partial h p x b past : run_of h p -> happened h (OStart x b) past ->
    exists t c, tasks !! x_task x = Some t /\ item_at t (x_path x) (RCmd c) /\
      (env_names (k_env k) -> env_names (t_env t) -> env_names (c_env c) -> forall n, env_name n ->
       let layers := [smap_get (c_env c) !! n; smap_get (t_env t) !! n; smap_get (k_env k) !! n] in
       (forall w, Some w ∈ layers -> plain w) ->
       match first_some (layers ++ [hint (in_block (x_scope x) && x_show x) (no_color (x_scope x)) n]) with
       | Some w => process_sees (x_environ x) n (Some w)
       | None => forall v, process_sees (x_environ x) n v <-> process_sees (k_environ k) n v
       end).
  Proof.
    intros Hr Hh. destruct (C33_environment_precedence_partial _ _ _ _ _ Hr Hh) as (t & c & vars0 & vars & Ht & Hat & _ & _ & H).
    exists t, c. split; [exact Ht|]. split; [exact Hat|]. intros Nk Nt Nc n Hn layers Hp. specialize (H Nk Nt Nc n Hn).
    assert (Hplain : forall vs w v, plain w -> interpolate getenv vs w = Ok v -> v = w).
    { intros vs w v [H1 H2] Hi. pose proof (interpolate_escape getenv vs w H1) as He. rewrite (plain_escape w H2) in He. congruence. }
    unfold layers in *. destruct (smap_get (c_env c) !! n) as [w|]; simpl.
    { destruct H as (v & H1 & H2). apply Hplain in H1 as ->; [exact H2|apply Hp; left]. }
    destruct (smap_get (t_env t) !! n) as [w|]; simpl; [|destruct (smap_get (k_env k) !! n) as [w|]; simpl].
    - assert (plain w) as Hw by (apply Hp; right; left). destruct H as (w' & v & H1 & H2 & H3). apply Hplain in H1 as ->; [|exact Hw]. apply Hplain in H2 as ->; [exact H3|exact Hw].
    - assert (plain w) as Hw by (apply Hp; right; right; left). destruct H as (w' & v & H1 & H2 & H3). apply Hplain in H1 as ->; [|exact Hw]. apply Hplain in H2 as ->; [exact H3|exact Hw].
    - destruct (hint _ _ n); simpl; exact H.
  Qed.

  (** ** C03 *)
  (** [escape w] is [w] with a [$] put before every [${{]. *)
  Theorem C03_command h p x b t c w : run_of h p -> OStart x b ∈ h -> tasks !! x_task x = Some t -> item_at t (x_path x) (RCmd c) ->
    c_cmd c = escape w -> nul_free w -> x_cmd x = w.
  Proof.
    intros Hr Hin Ht Hat Hc Hw. destruct (start_facts _ _ _ _ Hr Hin) as (past & _ & _ & _ & HB).
    destruct (st_what _ _ _ _ HB) as (t' & c' & sc & vars & tenv & cenv & order & Ht' & Hruns & _ & _ & _ & _ & Hi & _).
    rewrite Ht in Ht'. injection Ht' as <-. apply (runs_item _ _ _ _ _ Ht) in Hruns. pose proof (item_at_fun _ _ _ _ Hat Hruns) as E. injection E as <-.
    rewrite Hc, interpolate_escape in Hi by exact Hw. congruence.
  Qed.
  Theorem C03_log h p T pa text level d t lg w : run_of h p -> OLog T pa text level d ∈ h -> tasks !! T = Some t -> item_at t pa (RLog lg) ->
    l_log lg = escape w -> nul_free w -> text = w.
  Proof.
    intros Hr Hin Ht Hat Hc Hw. pose proof (run_good k tasks root Hkeyed _ _ Hr) as Hg.
    destruct (good_in _ _ _ _ Hg Hin) as (h2 & _ & _ & _ & [_ (_ & _ & _ & t' & lg' & vars & Ht' & Hruns & _ & Hi & _)]).
    rewrite Ht in Ht'. injection Ht' as <-. apply (runs_item _ _ _ _ _ Ht) in Hruns. pose proof (item_at_fun _ _ _ _ Hat Hruns) as E. injection E as <-.
    rewrite Hc, interpolate_escape in Hi by exact Hw. congruence.
  Qed.
  Lemma interpolate_list_escape vars l ws : interpolate_list getenv vars (map escape ws) = Ok l -> Forall nul_free ws -> l = ws.
  Proof.
    revert l. induction ws as [|w ws IH]; simpl; intros l H Hn; [congruence|]. apply Forall_cons in Hn as [H1 H2]. rewrite interpolate_escape in H by exact H1.
    destruct (interpolate_list getenv vars (map escape ws)) as [l'|]; [|discriminate]. injection H as <-. f_equal. apply IH; [reflexivity|exact H2].
  Qed.
  Theorem C03_prompt h p T pa q a t pr msg def ph options defaults : run_of h p -> OPrompt T pa q a ∈ h -> tasks !! T = Some t -> item_at t pa (RPrompt pr) ->
    p_message pr = escape msg -> p_default pr = escape def -> p_placeholder pr = escape ph -> p_options pr = map escape options -> p_defaults pr = map escape defaults ->
    Forall nul_free (msg :: def :: ph :: options ++ defaults) ->
    p_message q = msg /\ p_default q = def /\ p_placeholder q = ph /\ p_options q = options /\ p_defaults q = defaults.
  Proof.
    intros Hr Hin Ht Hat E1 E2 E3 E4 E5 Hn. pose proof (run_good k tasks root Hkeyed _ _ Hr) as Hg.
    destruct (good_in _ _ _ _ Hg Hin) as (h2 & _ & _ & _ & [_ (_ & _ & t' & i & pr' & vars & _ & Ht' & Hruns & _ & Hi)]).
    rewrite Ht in Ht'. injection Ht' as <-. apply (runs_item _ _ _ _ _ Ht) in Hruns. pose proof (item_at_fun _ _ _ _ Hat Hruns) as E. injection E as <-.
    apply Forall_cons in Hn as [N1 Hn]. apply Forall_cons in Hn as [N2 Hn]. apply Forall_cons in Hn as [N3 Hn]. apply Forall_app in Hn as [N4 N5].
    unfold interpolate_prompt in Hi. rewrite E1, E2, E3, E4, E5, interpolate_escape in Hi by exact N1.
    assert (Hopt : forall w, nul_free w -> match escape w with [] => Ok [] | _ :: _ => interpolate getenv vars (escape w) end = @Ok ierr str w).
    { intros w Hw. rewrite interpolate_escape by exact Hw. destruct w as [|c w]; [reflexivity|]. destruct (escape (c :: w)) eqn:E; [|reflexivity].
      apply (interpolate_escape (fun _ => []) ∅) in Hw. rewrite E in Hw. discriminate Hw. }
    rewrite (Hopt def N2), (Hopt ph N3) in Hi.
    destruct (interpolate_list getenv vars (map escape options)) as [os|] eqn:Eo; [|discriminate]. apply interpolate_list_escape in Eo; [|exact N4].
    destruct (interpolate_list getenv vars (map escape defaults)) as [ds|] eqn:Ed; [|discriminate]. apply interpolate_list_escape in Ed; [|exact N5].
    injection Hi as <-. simpl. auto.
  Qed.
  Lemma first_given_fun l d d' : first_given l d -> first_given l d' -> d = d'.
  Proof. induction 1; inversion 1; subst; auto; try congruence. Qed.
  Theorem C03_dir h p x b t c w q n : run_of h p -> OStart x b ∈ h -> tasks !! x_task x = Some t -> item_at t (x_path x) (RCmd c) ->
    first_given [c_dir c; t_dir t; k_dir k] (escape w) -> nul_free w ->
    t_source t = q ++ slash :: n -> slash ∉ n -> is_abs (q ++ [slash]) = true -> x_dir x = spelled (place_from q w).
  Proof.
    intros Hr Hin Ht Hat Hd Hw Hq Hn Ha. destruct (start_facts _ _ _ _ Hr Hin) as (past & Hh & _).
    destruct (C34_working_directory _ _ _ _ _ Hr Hh) as (t' & c' & vars & d & d' & Ht' & Hat' & _ & Hd' & Hcase & Hx).
    rewrite Ht in Ht'. injection Ht' as <-. pose proof (item_at_fun _ _ _ _ Hat Hat') as E. injection E as <-.
    pose proof (first_given_fun _ _ _ Hd Hd') as <-. rewrite (Hx q n Hq Hn Ha). f_equal. f_equal.
    pose proof (interpolate_escape getenv vars w Hw) as He.
    destruct Hcase as [[E ->]|(_ & Hi & _)]; [|congruence]. rewrite E in He. injection He as <-. reflexivity.
  Qed.
  Theorem C03_command_env h p x b t c n w : run_of h p -> OStart x b ∈ h -> tasks !! x_task x = Some t -> item_at t (x_path x) (RCmd c) ->
    env_names (k_env k) -> env_names (t_env t) -> env_names (c_env c) -> env_name n ->
    smap_get (c_env c) !! n = Some (escape w) -> nul_free w -> process_sees (x_environ x) n (Some w).
  Proof.
    intros Hr Hin Ht Hat Nk Nt Nc Hn Hc Hw. destruct (start_facts _ _ _ _ Hr Hin) as (past & Hh & _).
    destruct (C33_environment_precedence_partial _ _ _ _ _ Hr Hh) as (t' & c' & vars0 & vars & Ht' & Hat' & _ & _ & H).
    rewrite Ht in Ht'. injection Ht' as <-. pose proof (item_at_fun _ _ _ _ Hat Hat') as E. injection E as <-.
    specialize (H Nk Nt Nc n Hn). rewrite Hc in H. destruct H as (v & H1 & H2). rewrite interpolate_escape in H1 by exact Hw. congruence.
  Qed.
  (** In the [env] of a task and in the global one the text must be escaped twice. *)
  Theorem C03_outer_env_partial h p x b t c n w : run_of h p -> OStart x b ∈ h -> tasks !! x_task x = Some t -> item_at t (x_path x) (RCmd c) ->
    env_names (k_env k) -> env_names (t_env t) -> env_names (c_env c) -> env_name n ->
    first_some [smap_get (c_env c) !! n; smap_get (t_env t) !! n; smap_get (k_env k) !! n] = Some (escape (escape w)) ->
    smap_get (c_env c) !! n = None -> nul_free w -> process_sees (x_environ x) n (Some w).
  Proof.
    intros Hr Hin Ht Hat Nk Nt Nc Hn Hf Hc Hw. destruct (start_facts _ _ _ _ Hr Hin) as (past & Hh & _).
    destruct (C33_environment_precedence_partial _ _ _ _ _ Hr Hh) as (t' & c' & vars0 & vars & Ht' & Hat' & _ & _ & H).
    rewrite Ht in Ht'. injection Ht' as <-. pose proof (item_at_fun _ _ _ _ Hat Hat') as E. injection E as <-.
    specialize (H Nk Nt Nc n Hn). rewrite Hc in H, Hf. pose proof (escape_nul_free w Hw) as Hw'.
    assert (HH : exists w' v, interpolate getenv vars0 (escape (escape w)) = Ok w' /\ interpolate getenv vars w' = Ok v /\ process_sees (x_environ x) n (Some v)).
    { destruct (smap_get (t_env t) !! n) as [u|]; [injection Hf as ->; exact H|]. destruct (smap_get (k_env k) !! n) as [u|]; [injection Hf as ->; exact H|discriminate]. }
    destruct HH as (w' & v & H1 & H2 & H3). rewrite interpolate_escape in H1 by exact Hw'. injection H1 as <-. rewrite interpolate_escape in H2 by exact Hw. congruence.
  Qed.

  (** ** C31 *)
  Definition prompts_scoped : Prop := forall T t i pr, tasks !! T = Some t -> t_run t !! i = Some (RPrompt pr) -> t_vars t <> None.

  Lemma globals_const h : prompts_scoped -> good h -> heap_of (k_vars k) h 0 = k_vars k.
  Proof.
    intros Hp. induction h as [|ev h IH]; intros Hg; [reflexivity|]. apply good_tail in Hg as (Hg & Ha & [_ HB]). specialize (IH Hg).
    destruct ev; try exact IH.
    - simpl in *. rewrite decide_False by lia. exact IH.
    - simpl in *. destruct (decide (l = 0)) as [->|]; [|exact IH]. exfalso.
      destruct HB as (t' & i & pr & q & -> & Ht & Hr & _ & _ & _ & Hl). apply (runs_item _ _ _ _ _ Ht) in Hr. specialize (Hp _ _ _ _ Ht Hr).
      destruct (t_vars t'); [|congruence]. destruct Hl as (m & Hm). apply (alloc_range _ _ _ _ _ _ _ _ Hg) in Hm. lia.
  Qed.
  Lemma globals_once_const h m : prompts_scoped -> good h -> globals_once k h m -> m = k_vars k.
  Proof. intros Hp Hg (h' & Hs & ->). apply globals_const; [exact Hp|]. eapply good_suffix; eassumption. Qed.

  Lemma answer_unique h T i q v q' v' : good h -> OPrompt T [i] q (Some v) ∈ h -> OPrompt T [i] q' (Some v') ∈ h -> v = v'.
  Proof.
    intros Hg H1 H2. destruct (in_order _ _ _ H1 H2) as [E|[(h2 & A & B)|(h2 & A & B)]]; [congruence| |]; exfalso; apply (good_suffix _ _ _ _ A) in Hg;
      refine (act_once k tasks root _ _ _ T [i] Hg _ _ B); reflexivity.
  Qed.
  Lemma answer_would h T i q v : good h -> OPrompt T [i] q (Some v) ∈ h -> (exists w, OWould T [i] w ∈ h) -> False.
  Proof.
    intros Hg H1 (w & H2). destruct (in_order _ _ _ H1 H2) as [E|[(h2 & A & B)|(h2 & A & B)]]; [discriminate E| |]; apply (good_suffix _ _ _ _ A) in Hg;
      refine (act_once k tasks root _ _ _ T [i] Hg _ _ B); reflexivity.
  Qed.
  Lemma answer_skip h T i q v w : good h -> OPrompt T [i] q (Some v) ∈ h -> OSkip T [i] w ∈ h -> False.
  Proof.
    intros Hg H1 H2. destruct (skip_owned k tasks root _ _ _ _ _ [] false Hg H2 H1 eq_refl) as [E|[(?&?&E)|(h2 & A & B)]]; [discriminate E|discriminate E|].
    apply (good_suffix _ _ _ _ A) in Hg. eapply (item_over k tasks root _ _ T i [] false Hg); [right; eauto|reflexivity].
  Qed.

  (** Items after the prompt see the answer, unless another prompt of the task
      between them sets the same variable. *)
  Lemma answer_stays h t i i' pr q v m : good h -> task_vars k h t i' m -> i < i' -> t_run t !! i = Some (RPrompt pr) ->
    OPrompt (t_name t) [i] q (Some v) ∈ h ->
    (forall i2 pr2, i < i2 < i' -> t_run t !! i2 = Some (RPrompt pr2) -> p_prompt pr2 <> p_prompt pr) -> m !! p_prompt pr = Some v.
  Proof.
    intros Hg Hv. induction Hv as [vs gl order l m H1 H2 H3 H4 H5|i' m pr' q' v' Hv IH Hit Hin|i' m it Hv IH Hit Hwhy]; intros Hi Hpr Hans Hno; [lia| |].
    - destruct (decide (i = i')) as [->|Hne].
      + rewrite Hpr in Hit. injection Hit as <-. rewrite lookup_insert. f_equal. eapply answer_unique; [exact Hg|exact Hin|exact Hans].
      + assert (p_prompt pr' <> p_prompt pr) as Hd by (apply (Hno i'); [lia|exact Hit]). rewrite lookup_insert_ne by exact Hd.
        apply IH; [lia|exact Hpr|exact Hans|]. intros i2 pr2 Hlt. apply Hno. lia.
    - destruct (decide (i = i')) as [->|Hne].
      + exfalso. rewrite Hpr in Hit. injection Hit as <-. destruct Hwhy as [H|[(w & H)|H]]; [exact (H pr eq_refl)|eapply answer_skip; eassumption|eapply answer_would; eassumption].
      + apply IH; [lia|exact Hpr|exact Hans|]. intros i2 pr2 Hlt. apply Hno. lia.
  Qed.

  Theorem C31_later_items_see_the_answer_partial h p x b t i pr q v : run_of h p -> OStart x b ∈ h -> tasks !! x_task x = Some t -> t_vars t <> None ->
    t_run t !! i = Some (RPrompt pr) -> OPrompt (x_task x) [i] q (Some v) ∈ h -> i < top (x_path x) ->
    (forall i2 pr2, i < i2 < top (x_path x) -> t_run t !! i2 = Some (RPrompt pr2) -> p_prompt pr2 <> p_prompt pr) ->
    exists c vars, item_at t (x_path x) (RCmd c) /\ interpolate getenv vars (c_cmd c) = Ok (x_cmd x) /\ vars !! p_prompt pr = Some v.
  Proof.
    intros Hr Hin Ht Htv Hpr Hans Hi Hno. pose proof (run_good k tasks root Hkeyed _ _ Hr) as Hg. destruct (start_facts _ _ _ _ Hr Hin) as (past & _ & Hs & Hgp & HB).
    destruct (st_what _ _ _ _ HB) as (t' & c & sc & vars & tenv & cenv & order & Ht' & Hruns & _ & _ & Hsees & _ & Hic & _).
    rewrite Ht in Ht'. injection Ht' as <-. exists c, vars. split; [eapply runs_item; eassumption|]. split; [exact Hic|].
    unfold sees in Hsees. destruct (t_vars t); [|congruence]. apply (task_vars_mono _ _ _ _ _ _ Hs) in Hsees.
    rewrite <- (Hkeyed _ _ Ht) in Hans.
    eapply (answer_stays h t i (top (x_path x)) pr q v vars); [exact Hg|exact Hsees|exact Hi|exact Hpr|exact Hans|exact Hno].
  Qed.
End Theorems.

(** Two runs, whatever their root, schedule, outcomes and answers to other prompts:
    if the earlier prompts of the task itself got the same answers, the command is
    the same. *)
Section Two_runs.
  Context (k : config) (tasks : taskmap) (root1 root2 : str).
  Context (Hkeyed : keyed tasks) (Hscoped : prompts_scoped tasks).
  Context (Hg : forall n, nul_free (k_getenv k n)) (Hv : all_nul_free (k_vars k))
    (Ht : forall T t vs, tasks !! T = Some t -> t_vars t = Some vs -> all_nul_free vs).
  Notation good root := (good (k_vars k) (step_ok k tasks root)).

  (** The answers of [T] before item [i] agree. *)
  Definition same_answers (T : str) (i : nat) (h1 h2 : hist) : Prop :=
    forall i' v, i' < i -> (exists q, OPrompt T [i'] q (Some v) ∈ h1) <-> (exists q, OPrompt T [i'] q (Some v) ∈ h2).

  Lemma task_vars_same h1 h2 T t i m1 m2 : good root1 h1 -> good root2 h2 -> tasks !! T = Some t ->
    task_vars k h1 t i m1 -> task_vars k h2 t i m2 -> same_answers (t_name t) i h1 h2 -> m1 = m2.
  Proof.
    intros Hg1 Hg2 HT H1. revert m2. induction H1 as [vs gl order l m A1 A2 A3 A4 A5|i m pr q v H1 IH Hit Hin|i m it H1 IH Hit Hwhy]; intros m2 H2 Hs.
    - inversion H2 as [vs' gl' order' l' m' B1 B2 B3 B4 B5| |]; subst. rewrite A1 in B1. injection B1 as <-.
      apply (globals_once_const k tasks root1 h1 gl Hscoped Hg1) in A2. apply (globals_once_const k tasks root2 h2 gl' Hscoped Hg2) in B2. subst gl gl'.
      pose proof (resolve_vars_order (k_getenv k) vs (Some (k_vars k)) order order' Hg (Ht _ _ _ HT A1) Hv A3 B3 m A4) as E. congruence.
    - assert (Hs' : same_answers (t_name t) i h1 h2) by (intros i' v' Hlt; apply Hs; lia).
      destruct (proj1 (Hs i v ltac:(lia))) as (q2 & Hq2); [eauto|].
      inversion H2 as [|i0 m0 pr' q' v' B1 B2 B3|i0 m0 it' B1 B2 B3]; subst.
      + rewrite Hit in B2. injection B2 as <-. rewrite (answer_unique k tasks root2 _ _ _ _ _ _ _ Hg2 Hq2 B3). f_equal. apply IH; assumption.
      + exfalso. rewrite Hit in B2. injection B2 as <-. destruct B3 as [B3|[(w & B3)|B3]]; [exact (B3 pr eq_refl)|exact (answer_skip k tasks root2 _ _ _ _ _ _ Hg2 Hq2 B3)|exact (answer_would k tasks root2 _ _ _ _ _ Hg2 Hq2 B3)].
    - assert (Hs' : same_answers (t_name t) i h1 h2) by (intros i' v' Hlt; apply Hs; lia).
      inversion H2 as [|i0 m0 pr' q' v' B1 B2 B3|i0 m0 it' B1 B2 B3]; subst.
      + exfalso. rewrite Hit in B2. injection B2 as ->. destruct (proj2 (Hs i v' ltac:(lia))) as (q1 & Hq1); [eauto|].
        destruct Hwhy as [B|[(w & B)|B]]; [exact (B pr' eq_refl)|exact (answer_skip k tasks root1 _ _ _ _ _ _ Hg1 Hq1 B)|exact (answer_would k tasks root1 _ _ _ _ _ Hg1 Hq1 B)].
      + apply IH; assumption.
  Qed.
  Lemma sees_same h1 h2 T t pa m1 m2 : good root1 h1 -> good root2 h2 -> tasks !! T = Some t ->
    sees k h1 t pa m1 -> sees k h2 t pa m2 -> same_answers (t_name t) (top pa) h1 h2 -> m1 = m2.
  Proof.
    unfold sees. intros Hg1 Hg2 HT. destruct (t_vars t) as [vs|] eqn:E; [intros H1 H2 Hs; eapply task_vars_same; eassumption|].
    intros H1 H2 _. rewrite (globals_once_const k tasks root1 h1 m1 Hscoped Hg1 H1). symmetry. apply (globals_once_const k tasks root2 h2 m2 Hscoped Hg2 H2).
  Qed.

  Theorem C31_other_answers_do_not_matter_partial h1 p1 x1 b1 h2 p2 x2 b2 :
    run_of k tasks root1 h1 p1 -> OStart x1 b1 ∈ h1 -> run_of k tasks root2 h2 p2 -> OStart x2 b2 ∈ h2 ->
    x_task x1 = x_task x2 -> x_path x1 = x_path x2 -> same_answers (x_task x1) (top (x_path x1)) h1 h2 ->
    x_cmd x1 = x_cmd x2 /\ x_dir x1 = x_dir x2.
  Proof.
    intros R1 S1 R2 S2 ET EP Hs. pose proof (run_good k tasks root1 Hkeyed _ _ R1) as Hg1. pose proof (run_good k tasks root2 Hkeyed _ _ R2) as Hg2.
    destruct (start_facts k tasks root1 Hkeyed _ _ _ _ R1 S1) as (past1 & _ & Hs1 & _ & HB1). destruct (start_facts k tasks root2 Hkeyed _ _ _ _ R2 S2) as (past2 & _ & Hs2 & _ & HB2).
    destruct (st_what _ _ _ _ HB1) as (t & c & sc1 & vars1 & te1 & ce1 & o1 & T1 & Q1 & _ & _ & V1 & _ & I1 & _ & _ & _ & _ & D1 & _).
    destruct (st_what _ _ _ _ HB2) as (t2 & c2 & sc2 & vars2 & te2 & ce2 & o2 & T2 & Q2 & _ & _ & V2 & _ & I2 & _ & _ & _ & _ & D2 & _).
    rewrite <- ET in *. rewrite <- EP in *. rewrite T1 in T2. injection T2 as <-.
    apply (runs_item k tasks _ _ _ _ _ T1) in Q1, Q2. pose proof (item_at_fun _ _ _ _ Q1 Q2) as E. injection E as <-.
    assert (vars1 = vars2) as <-.
    { eapply sees_same; [exact Hg1|exact Hg2|exact T1|eapply sees_mono; [exact Hs1|exact V1]|eapply sees_mono; [exact Hs2|exact V2]|]. rewrite (Hkeyed _ _ T1). exact Hs. }
    split; [congruence|]. destruct D1 as [[E1 ->]|[(E1 & d1 & F1 & ->) _]]; destruct D2 as [[E2 ->]|[(E2 & d2 & F2 & ->) _]]; [reflexivity|contradiction|contradiction|].
    rewrite F1 in F2. injection F2 as <-. reflexivity.
  Qed.
  Theorem C31_other_answers_do_not_matter_for_logs_partial h1 p1 h2 p2 T pa x1 l1 d1 x2 l2 d2 :
    run_of k tasks root1 h1 p1 -> OLog T pa x1 l1 d1 ∈ h1 -> run_of k tasks root2 h2 p2 -> OLog T pa x2 l2 d2 ∈ h2 ->
    same_answers T (top pa) h1 h2 -> x1 = x2 /\ l1 = l2.
  Proof.
    intros R1 S1 R2 S2 Hs. pose proof (run_good k tasks root1 Hkeyed _ _ R1) as Hg1. pose proof (run_good k tasks root2 Hkeyed _ _ R2) as Hg2.
    destruct (good_in _ _ _ _ Hg1 S1) as (h3 & Hs1 & _ & _ & [_ (_ & _ & _ & t & lg & vars1 & T1 & Q1 & V1 & I1 & ->)]).
    destruct (good_in _ _ _ _ Hg2 S2) as (h4 & Hs2 & _ & _ & [_ (_ & _ & _ & t2 & lg2 & vars2 & T2 & Q2 & V2 & I2 & ->)]).
    rewrite T1 in T2. injection T2 as <-.
    apply (runs_item k tasks _ _ _ _ _ T1) in Q1, Q2. pose proof (item_at_fun _ _ _ _ Q1 Q2) as E. injection E as <-.
    assert (vars1 = vars2) as <-.
    { eapply sees_same; [exact Hg1|exact Hg2|exact T1|eapply sees_mono; [|exact V1]|eapply sees_mono; [|exact V2]|rewrite (Hkeyed _ _ T1); exact Hs];
        (etransitivity; [apply suffix_cons_self|eassumption]). }
    split; [congruence|reflexivity].
  Qed.
End Two_runs.

(** ** Concrete runs *)

(** A command with every setting: own and outer environment, directories, a block
    that overrides [output], a reference that overrides [silent]. *)
Definition rich_env : smap := Some {[ lit "A" := lit "cmd"; lit "D" := lit "$${{ x }}" ]}.
Definition rich_cmd : run_item := RCmd (CmdRun 1 (lit "make ${{ x }}") (lit "../${{ x }}/./sub") rich_env None None [] []).
Definition rich_task : task :=
  Task (lit "t") 1 1 (lit "/w/lib/Babfile.yml") [] [] [] (Some {[ lit "x" := lit "1" ]}) (Some {[ lit "A" := lit "task"; lit "B" := lit "task-${{ x }}" ]})
    None None (lit "ignored") [] [] [rich_cmd].
Definition rich_root : task :=
  Task (lit "all") 1 1 (lit "/w/Babfile.yml") [] [] [] None None (Some false) None [] [] []
    [RPar (ParOpts 1 [] [] 0%Z (Some false) None (Some true) [] []) [RTask (TaskRun 1 (lit "t") (Some true) None [] [])]].
Definition rich_conf : config :=
  Config false ∅ (Some {[ lit "B" := lit "global"; lit "C" := lit "global" ]}) (Some false) (Some false) (lit "nowhere") (fun _ => [])
    [lit "HOME=/h"; lit "C=os"; lit "TERM=xterm"] (lit "linux") false.
Definition rich_tasks : taskmap := tm [rich_task; rich_root].
Definition rich_script : list act := [Go [] 60 fine; Do [] (MSlot 0); Go [0] 60 fine; Do [] (MReturn 0); Do [] (MFree 0); Do [] MJoin; Go [] 60 fine].
Definition rich := ran rich_conf rich_tasks (lit "all") rich_script.
Definition rich_x (ev : event) : bool :=
  match ev with
  | OStart x true => bool_decide (x_task x = lit "t" /\ x_path x = [0] /\ x_cmd x = lit "make 1" /\ x_dir x = lit "/w/1/sub" /\
      x_show x = true /\ x_stdin x = false /\
      x_environ x = map lit ["HOME=/h"; "C=os"; "TERM=xterm"; "TERM=dumb"; "NO_COLOR=1"; "D=${{ x }}"; "B=task-1"; "A=cmd"; "C=global"]%string)
  | _ => false
  end.
Example rich_keyed : keyed rich_tasks.
Proof. apply keyed_by. vm_compute. reflexivity. Qed.
Example C32_C33_C34_met : has rich_x rich.1 = true /\ result rich.2 = Some None /\ has (fun ev => match ev with OEcho _ _ _ _ => true | _ => false end) rich.1 = false /\
  has (fun ev => match ev with OStat T [0] d SDir => bool_decide (T = lit "t" /\ d = lit "/w/1/sub") | _ => false end) rich.1 = true.
Proof. vm_compute. auto. Qed.

(** ** What does not hold *)

(** The environment of a task is interpolated again for every command, so that an
    escaped template is expanded after all. The same for the global environment. *)
Definition twice_run (genv tenv : smap) : hist * prog :=
  ran (Config false ∅ genv None None [] (fun _ => []) [] (lit "linux") false)
    (tm [Task (lit "t") 1 1 (lit "/w/Babfile.yml") [] [] [] (Some {[ lit "x" := lit "1" ]}) tenv None None [] [] [] [cmd "env"]]) (lit "t") [Go [] 60 fine].
Definition escaped : smap := Some {[ lit "V" := escape (lit "${{ x }}") ]}.
Lemma sees_one : ~ process_sees [lit "V=1"] (lit "V") (Some (lit "${{ x }}")).
Proof.
  intros H. assert (H1 : process_sees [lit "V=1"] (lit "V") (Some (lit "1"))) by (exists [], []; split; [reflexivity|intros v' H'; inversion H']).
  pose proof (process_fun _ _ _ _ H H1) as E. discriminate E.
Qed.
Definition sees_V (ev : event) : bool := match ev with OStart x true => bool_decide (x_task x = lit "t" /\ x_environ x = [lit "V=1"]) | _ => false end.
Lemma has_start f h : has (fun ev => match ev with OStart x true => f x | _ => false end) h = true -> exists x, OStart x true ∈ h /\ f x = true.
Proof. intros H. apply has_in in H as (ev & H1 & H2). destruct ev; try discriminate H2. destruct started; [|discriminate H2]. eauto. Qed.
Theorem C03_task_env_refuted : exists k tasks root h p x t, keyed tasks /\ run_of k tasks root h p /\ OStart x true ∈ h /\ tasks !! x_task x = Some t /\
  smap_get (t_env t) !! lit "V" = Some (escape (lit "${{ x }}")) /\ ~ process_sees (x_environ x) (lit "V") (Some (lit "${{ x }}")).
Proof.
  assert (H : has sees_V (twice_run None escaped).1 = true) by (vm_compute; reflexivity). apply has_start in H as (x & H1 & H2).
  apply bool_decide_eq_true in H2 as [E1 E2].
  eexists _, _, _, (twice_run None escaped).1, (twice_run None escaped).2, x, _. split; [|split; [apply ran_run|]].
  - apply keyed_by. vm_compute. reflexivity.
  - split; [exact H1|]. rewrite E1, E2. split; [vm_compute; reflexivity|]. split; [vm_compute; reflexivity|exact sees_one].
Qed.
Theorem C03_global_env_refuted : exists k tasks root h p x, keyed tasks /\ run_of k tasks root h p /\ OStart x true ∈ h /\
  smap_get (k_env k) !! lit "V" = Some (escape (lit "${{ x }}")) /\ ~ process_sees (x_environ x) (lit "V") (Some (lit "${{ x }}")).
Proof.
  assert (H : has sees_V (twice_run escaped None).1 = true) by (vm_compute; reflexivity). apply has_start in H as (x & H1 & H2).
  apply bool_decide_eq_true in H2 as [E1 E2].
  eexists _, _, _, (twice_run escaped None).1, (twice_run escaped None).2, x. split; [|split; [apply ran_run|]].
  - apply keyed_by. vm_compute. reflexivity.
  - split; [exact H1|]. rewrite E2. split; [vm_compute; reflexivity|exact sees_one].
Qed.

(** A task without [vars] writes the answer into the map all tasks share. *)
Definition leak_tasks : taskmap := tm [mk "all" None ["asks"; "uses"]%string [note "done"]; mk "asks" None [] [ask "who"]; mk "uses" None [] [cmd "greet ${{ who }}"]].
Definition leak (answer : string) := ran (conf false) leak_tasks (lit "all") [Go [] 60 (says (lit answer))].
Definition greets (who : string) (ev : event) : bool :=
  match ev with OStart x true => bool_decide (x_task x = lit "uses" /\ x_path x = [0] /\ x_cmd x = lit "greet " ++ lit who) | _ => false end.
Theorem C31_refuted : exists k tasks root h1 p1 h2 p2 x1 x2 t, keyed tasks /\ run_of k tasks root h1 p1 /\ run_of k tasks root h2 p2 /\
  OStart x1 true ∈ h1 /\ OStart x2 true ∈ h2 /\ x_task x1 = x_task x2 /\ x_path x1 = x_path x2 /\ tasks !! x_task x1 = Some t /\
  (forall i pr, t_run t !! i <> Some (RPrompt pr)) /\ x_cmd x1 <> x_cmd x2.
Proof.
  assert (H1 : has (greets "ann") (leak "ann").1 = true) by (vm_compute; reflexivity). assert (H2 : has (greets "bob") (leak "bob").1 = true) by (vm_compute; reflexivity).
  apply has_start in H1 as (x1 & A1 & B1). apply has_start in H2 as (x2 & A2 & B2).
  apply bool_decide_eq_true in B1 as (B1 & C1 & D1). apply bool_decide_eq_true in B2 as (B2 & C2 & D2).
  exists (conf false), leak_tasks, (lit "all"), (leak "ann").1, (leak "ann").2, (leak "bob").1, (leak "bob").2, x1, x2, (mk "uses" None [] [cmd "greet ${{ who }}"]).
  split; [apply keyed_by; vm_compute; reflexivity|]. split; [apply ran_run|]. split; [apply ran_run|].
  split; [exact A1|]. split; [exact A2|]. split; [congruence|]. split; [congruence|]. split; [rewrite B1; vm_compute; reflexivity|].
  split; [intros [|[|i]] pr E; discriminate E|]. rewrite D1, D2. discriminate.
Qed.
(** With [vars] the hypotheses of the theorems are met: the answer is used by the
    task itself. *)
Definition own_tasks : taskmap := tm [mk "all" (Some ∅) [] [ask "who"; cmd "greet ${{ who }}"]].
Example C31_met : keyed own_tasks /\ prompts_scoped own_tasks /\
  has (fun ev => match ev with OStart x true => bool_decide (x_path x = [1] /\ x_cmd x = lit "greet ann") | _ => false end)
    (ran (conf false) own_tasks (lit "all") [Go [] 60 (says (lit "ann"))]).1 = true.
Proof.
  split; [apply keyed_by; vm_compute; reflexivity|]. split; [|vm_compute; reflexivity].
  intros T t i pr Ht _. unfold own_tasks in Ht. apply elem_of_list_to_map_2 in Ht. apply elem_of_list_singleton in Ht. injection Ht as _ ->. discriminate.
Qed.

(** A key with [=] in it changes another variable, which nobody set. *)
Definition odd_cmd : cmd_run := CmdRun 1 (lit "env") [] (Some {[ lit "HOME=x" := lit "2" ]}) None None [] [].
Definition odd_task : task := mk "all" None [] [RCmd odd_cmd].
Definition odd := ran (conf false) (tm [odd_task]) (lit "all") [Go [] 60 fine].
Theorem C33_refuted : exists k tasks root h p x t c n, keyed tasks /\ run_of k tasks root h p /\ OStart x true ∈ h /\ tasks !! x_task x = Some t /\
  item_at t (x_path x) (RCmd c) /\ env_name n /\ smap_get (c_env c) !! n = None /\ smap_get (t_env t) !! n = None /\ smap_get (k_env k) !! n = None /\
  process_sees (k_environ k) n (Some (lit "/h")) /\ ~ process_sees (x_environ x) n (Some (lit "/h")).
Proof.
  assert (H : has (fun ev => match ev with OStart x true => bool_decide (x_task x = lit "all" /\ x_path x = [0] /\ x_environ x = [lit "HOME=/h"; lit "LANG=C"; lit "HOME=x=2"]) | _ => false end) odd.1 = true) by (vm_compute; reflexivity).
  apply has_start in H as (x & A & B). apply bool_decide_eq_true in B as (B & C & D).
  exists (conf false), (tm [odd_task]), (lit "all"), odd.1, odd.2, x, odd_task, odd_cmd, (lit "HOME").
  split; [apply keyed_by; vm_compute; reflexivity|]. split; [apply ran_run|]. split; [exact A|]. rewrite B, C, D.
  split; [vm_compute; reflexivity|]. split; [reflexivity|]. split; [apply (bool_decide_unpack _); vm_compute; exact I|].
  split; [vm_compute; reflexivity|]. split; [vm_compute; reflexivity|]. split; [vm_compute; reflexivity|]. split.
  - exists [], [lit "LANG=C"]. split; [reflexivity|]. intros v' H. apply elem_of_list_singleton in H. discriminate H.
  - intros H. assert (H1 : process_sees [lit "HOME=/h"; lit "LANG=C"; lit "HOME=x=2"] (lit "HOME") (Some (lit "x=2")))
      by (exists [lit "HOME=/h"; lit "LANG=C"], []; split; [reflexivity|intros v' H'; inversion H']).
    pose proof (process_fun _ _ _ _ H H1) as E. discriminate E.
Qed.

(** C34: the directory is missing, nothing is run. *)
Definition lost := ran (conf false) (tm [Task (lit "all") 1 1 (lit "/w/Babfile.yml") [] [] [] None None None None (lit "gone") [] [] [cmd "ls"]]) (lit "all") [Go [] 60 failing].
Example C34_bad_met : has (fun ev => match ev with OStat T [0] d SMissing => bool_decide (d = lit "/w/gone") | _ => false end) lost.1 = true /\
  has (fun ev => match ev with OStart _ _ => true | _ => false end) lost.1 = false /\ result lost.2 = Some (Some (RDirStat (lit "all") (lit "/w/gone"))).
Proof. vm_compute. auto. Qed.
(** C03: in a command, a log and a prompt. *)
Definition esc_tasks : taskmap := tm [mk "all" (Some {[ lit "x" := lit "1" ]}) [] [cmd "a $${{ x }} ${{ x }}"; note "$$$${{ x }}";
  RPrompt (PromptRun 1 (lit "v") (lit "input") (lit "$${{ x }}?") [] [] [] [] [] [] None None None [])]].
Example C03_met : escape (lit "$${{ x }}${") = lit "$$${{ x }}${" /\
  let h := (ran (conf false) esc_tasks (lit "all") [Go [] 60 (says (lit "y"))]).1 in
  has (fun ev => match ev with OStart x true => bool_decide (x_cmd x = lit "a ${{ x }} 1") | _ => false end) h &&
  has (fun ev => match ev with OLog _ _ text _ _ => bool_decide (text = lit "$$${{ x }}") | _ => false end) h &&
  has (fun ev => match ev with OPrompt _ _ q _ => bool_decide (p_message q = lit "${{ x }}?") | _ => false end) h = true.
Proof. split; [reflexivity|vm_compute; reflexivity]. Qed.

Print Assumptions C03_command.
Print Assumptions C03_log.
Print Assumptions C03_prompt.
Print Assumptions C03_dir.
Print Assumptions C03_command_env.
Print Assumptions C03_outer_env_partial.
Print Assumptions C03_task_env_refuted.
Print Assumptions C03_global_env_refuted.
Print Assumptions C31_later_items_see_the_answer_partial.
Print Assumptions C31_other_answers_do_not_matter_partial.
Print Assumptions C31_other_answers_do_not_matter_for_logs_partial.
Print Assumptions C31_refuted.
Print Assumptions C32_precedence.
Print Assumptions C32_header_not_silent.
Print Assumptions C33_environment_precedence_partial.
Print Assumptions C33_plain_values_partial.
Print Assumptions C33_refuted.
Print Assumptions C34_working_directory.
Print Assumptions C34_bad_directory_runs_nothing.
