(** Prompts inside runs of a parsed Babfile: C52 and C53 for what is stored. *)
From Verif Require Import Base Interp_Model Types_Model Path_Model Doc_Model Doc_Spec Include_Model Run_Model Run_Logic Run_Inv Run_Proof Run_Facts Run_Drive P_Run P_Run_Cmd
  Run_Main P_Run_Parse Prompt_Model.
From Verif Require P_Doc Run_Spec Doc_Example P_Include.
From Verif Require Import P_Prompt.

(** Every prompt of the run was asked by the program of prompt.go. *)
Definition prompted (L : prompt_lib) (terminal : bool) (h : hist) : Prop :=
  forall T pa q a, OPrompt T pa q a ∈ h ->
    exists d r, asked (run_prompt L terminal q (p_message q)) d r /\ a = match r with Ok s => Some s | Err _ => None end.

Section Runs.
  Context (Y : yaml) (files : gmap str str) (w : world) (Hw : world_ok w) (Hfs : w_fs w = decoded Y files).
  Context (dry : bool) (path name : str) (k : config) (tasks : taskmap) (root : str) (Hl : load w dry path name = Ok (k, tasks, root)).
  Context (L : prompt_lib) (HL : lower_ok L).

  (** What a variable set by a prompt holds: the prompt stands in the task, was asked
      with its texts interpolated, and the value is, without a terminal, the declared
      default; with one, an answer that keeps what was asked for. Missing: see
      C53_terminal_partial and C53_default_partial. *)
  Theorem C53_stored_in_a_run_partial terminal h p T pa l x v : run_of k tasks root h p -> prompted L terminal h -> OWrite T pa l x v ∈ h ->
    exists t pr q vars, tasks !! T = Some t /\ item_at t pa (RPrompt pr) /\ x = p_prompt pr /\ prompt_ok (fun s => y_regexp Y s = true) pr /\
      interpolate_prompt (k_getenv k) vars pr = Ok q /\ OPrompt T pa q (Some v) ∈ h /\
      (terminal = false -> declared q v /\ (p_type q = lit "select" -> v ∈ p_options q) /\
         (p_type q = lit "multiselect" -> Forall (fun o => o ∈ p_options q) (p_defaults q)) /\ (p_type q = lit "number" -> exists z, integer v z)) /\
      (terminal = true -> answered L q v /\ ((p_type q = lit "number" -> p_default q = [] \/ v <> []) -> keeps L q v)).
  Proof.
    intros Hr Hpr Hin. pose proof (load_keyed _ Hw _ _ _ _ _ _ Hl) as Hk. pose proof (run_good k tasks root Hk _ _ Hr) as Hg.
    destruct (load_inv _ _ _ _ _ _ _ Hl) as (r & vs & Hp & _ & _ & Et & _). rewrite Hfs in Hp.
    destruct (good_in _ _ _ _ Hg Hin) as (h1 & Hs & _ & _ & [_ HB]). destruct HB as (t & i & pr & q & -> & Ht & Hruns & -> & Hq & _).
    assert (Hqh : OPrompt T [i] q (Some v) ∈ h) by (eapply suffix_elem; [etransitivity; [apply suffix_cons_self|exact Hs]|exact Hq]).
    destruct (good_in _ _ _ _ Hg Hqh) as (h2 & _ & _ & _ & [_ (_ & _ & t' & i' & pr' & vars & [= <-] & Ht' & Hruns' & _ & Hi)]).
    rewrite Ht in Ht'. injection Ht' as <-. apply (runs_item _ _ _ _ _ _ _ Ht) in Hruns, Hruns'. pose proof (item_at_fun _ _ _ _ Hruns Hruns') as [= <-].
    assert (Hok : prompt_ok (fun s => y_regexp Y s = true) pr).
    { rewrite Et in Ht. eapply P_Doc.C54_prompts_well_formed; [apply Hw|apply Hw|exact Hp|exact Ht|]. apply P_Doc.occurs_here. eapply elem_of_list_lookup_2. exact Hruns. }
    exists t, pr, q, vars. split; [exact Ht|]. split; [exact Hruns|]. split; [reflexivity|]. split; [exact Hok|]. split; [exact Hi|]. split; [exact Hqh|].
    destruct (Hpr _ _ _ _ Hqh) as (d & [s|e] & Ha & E); [injection E as <-|discriminate E]. split.
    - intros ->. destruct (C53_default_partial _ _ _ _ _ _ _ _ _ HL Hok Hi Ha) as (_ & H1 & H2 & H3 & _).
      destruct (C52_declared_default _ _ _ _ _ HL Ha) as (_ & Hd & _). split; [apply Hd; reflexivity|]. split; [exact H1|]. split; [intros E; apply H2; exact E|intros E; apply H3; exact E].
    - intros ->. split; [apply (C53_terminal_answers L q (p_message q)); eauto|]. intros Hn. eapply C53_terminal_partial; [exact Ha|exact Hn].
  Qed.

  (** Without a terminal a password prompt, or one without a default, ends the run of its task: nothing is stored. *)
  Theorem C52_no_default_no_value h p T pa q a : run_of k tasks root h p -> prompted L false h -> OPrompt T pa q a ∈ h ->
    (a = None <-> forall v, ~ declared q v) /\ (p_type q = lit "password" -> a = None) /\ (p_default q = [] -> p_defaults q = [] -> a = None) /\
    (a = None -> forall l x v, OWrite T pa l x v ∉ h).
  Proof.
    intros Hr Hpr Hin. destruct (Hpr _ _ _ _ Hin) as (d & r & Ha & ->).
    destruct (C52_declared_default _ _ _ _ _ HL Ha) as (_ & H1 & H2). destruct (C52_consequences _ _ _ _ _ HL Ha) as (_ & H3 & H4).
    split; [|split; [|split]].
    - destruct r as [s|e]; split; [discriminate|intros H; destruct (H s); apply H1; reflexivity| |reflexivity].
      intros _. exact (proj2 (proj1 (H2 e) eq_refl)).
    - intros E. rewrite (H3 (or_introl E)). reflexivity.
    - intros E1 E2. rewrite (H4 E1 E2). reflexivity.
    - intros E l x v Hwr. pose proof (load_keyed _ Hw _ _ _ _ _ _ Hl) as Hk. pose proof (run_good k tasks root Hk _ _ Hr) as Hg.
      destruct (good_in _ _ _ _ Hg Hwr) as (h1 & Hs & _ & _ & [_ HB]). destruct HB as (t & i & pr & q' & -> & Ht & Hruns & -> & Hq & _).
      assert (Hqh : OPrompt T [i] q' (Some v) ∈ h) by (eapply suffix_elem; [etransitivity; [apply suffix_cons_self|exact Hs]|exact Hq]).
      assert (X : OPrompt T [i] q (match r with Ok s => Some s | Err _ => None end) = OPrompt T [i] q' (Some v)); [|rewrite E in X; discriminate X].
      eapply (same k tasks root); [exact Hg|exact Hin|exact Hqh| |].
      all: intros h2 _ [_ (_ & Hid & _)] Hb; destruct (Hid _ Hb eq_refl) as [(? & ? & ? & X)|[(? & ? & X)|[(? & ? & X)|(? & ? & X)]]]; discriminate X.
  Qed.
End Runs.

(** ** A case: the document of P_Doc.v, included by another one, run without a terminal. *)
Definition ask_world : world :=
  World (decoded (Doc_Example.Y2 (Doc_Example.mp 1 P_Doc.outer) (Doc_Example.mp 1 P_Doc.sample)) P_Doc.two_files) (lit "/p")
    P_Include.fwd (fun n => n) P_Include.vfwd P_Include.key_order (fun _ => []) [] (lit "linux") false.
Definition ask_start : hist * prog :=
  match load ask_world false (lit "Babfile") (lit "app:deploy") with
  | Ok (k, tasks, root) => ran k tasks root [Go [] 60 (Run_Drive.Answers true (Some (lit "eu")) SDir false)]
  | Err _ => ([], Ret None)
  end.
Definition promptedb (L : prompt_lib) (h : hist) : bool :=
  forallb (fun ev => match ev with
    | OPrompt _ _ q a => bool_decide (a = match non_interactive L q with Ok s => Some s | Err _ => None end)
    | _ => true end) h.
Lemma promptedb_ok L h : promptedb L h = true -> prompted L false h.
Proof.
  intros H T pa q a Hin. unfold promptedb in H. rewrite forallb_forall in H. apply elem_of_list_In in Hin. apply H in Hin. apply bool_decide_eq_true in Hin.
  exists [], (non_interactive L q). split; [apply asked_answer|exact Hin].
Qed.
Example C53_run_met : exists k tasks root, world_ok ask_world /\ load ask_world false (lit "Babfile") (lit "app:deploy") = Ok (k, tasks, root) /\
  run_of k tasks root ask_start.1 ask_start.2 /\ prompted toyl false ask_start.1 /\
  exists l, OWrite (lit "app:deploy") [0] l (lit "where") (lit "eu") ∈ ask_start.1.
Proof.
  assert (E : is_ok (load ask_world false (lit "Babfile") (lit "app:deploy"))) by (vm_compute; exact I).
  assert (P : promptedb toyl ask_start.1 = true) by (vm_compute; reflexivity).
  assert (W : existsb (fun ev => match ev with OWrite T pa l x v => bool_decide (T = lit "app:deploy" /\ pa = [0] /\ x = lit "where" /\ v = lit "eu") | _ => false end) ask_start.1 = true)
    by (vm_compute; reflexivity).
  destruct (load ask_world false (lit "Babfile") (lit "app:deploy")) as [[[k tasks] root]|e] eqn:El; [|contradiction].
  exists k, tasks, root. split; [split; [exact P_Include.fwd_ok|exact P_Include.vfwd_ok]|]. split; [reflexivity|].
  split; [unfold ask_start; rewrite El; apply ran_run|]. split; [apply promptedb_ok; exact P|].
  apply existsb_exists in W as (ev & Hin & Hev). destruct ev; try discriminate Hev. apply bool_decide_eq_true in Hev as (-> & -> & -> & ->). exists l. apply elem_of_list_In. exact Hin.
Qed.

Print Assumptions C53_stored_in_a_run_partial.
Print Assumptions C52_no_default_no_value.
