(** What a goroutine tree did itself, when it returned success: nothing failed, and
    every task it claimed it also completed. Answers are arbitrary here. *)
From Verif Require Import Base Interp_Model Cond_Model Types_Model Path_Model Run_Model Run_Logic.

Inductive ptrace : prog -> list event -> prog -> Prop :=
| pt_nil p : ptrace p [] p
| pt_cons p ev p1 tr p2 : pstep p ev p1 -> ptrace p1 tr p2 -> ptrace p (ev :: tr) p2.

Definition fails (ev : event) : Prop :=
  match ev with
  | OStart _ false | OEnd _ _ false | OPrompt _ _ _ None | OCheck _ _ _ true | OTui false
  | OReturn _ _ _ (Some _) | ORet _ _ (Some _) | OClaim _ _ Active => True
  | OStat _ _ _ s => s <> SDir
  | _ => False
  end.
Definition claims (ev : event) : option str := match ev with OClaim n _ Fresh => Some n | _ => None end.

Definition closed (l : list event) : Prop :=
  (forall ev, ev ∈ l -> ~ fails ev) /\ (forall ev n, ev ∈ l -> claims ev = Some n -> ODone n ∈ l).

Lemma closed_nil : closed [].
Proof. split; [intros ev H|intros ev n H]; inversion H. Qed.
Lemma closed_app l1 l2 : closed l1 -> closed l2 -> closed (l1 ++ l2).
Proof.
  intros [A1 B1] [A2 B2]. split.
  - intros ev H. apply elem_of_app in H as [H|H]; auto.
  - intros ev n H Hc. apply elem_of_app in H as [H|H]; apply elem_of_app; eauto.
Qed.

(** [p], having the tasks [D] to complete. *)
Definition cl (D : list str) (p : prog) : Prop :=
  forall tr, ptrace p tr (Ret None) ->
    (forall ev, ev ∈ tr -> ~ fails ev) /\ (forall ev n, ev ∈ tr -> claims ev = Some n -> ODone n ∈ tr) /\
    (forall n, n ∈ D -> ODone n ∈ tr).
Definition never (p : prog) : Prop := forall tr, ~ ptrace p tr (Ret None).

Lemma never_cl D p : never p -> cl D p.
Proof. intros H tr Htr. destruct (H tr Htr). Qed.
Lemma ptrace_ret r tr p : ptrace (Ret r) tr p -> tr = [] /\ p = Ret r.
Proof. inversion 1; subst; [auto|]. exfalso. eapply ret_nostep; eassumption. Qed.
Lemma never_err e : never (Ret (Some e)).
Proof. intros tr H. apply ptrace_ret in H as [_ H]. discriminate. Qed.
Lemma cl_err D e : cl D (Ret (Some e)).
Proof. apply never_cl. apply never_err. Qed.
Lemma cl_ret r : cl [] (Ret r).
Proof.
  intros tr H. apply ptrace_ret in H as [-> _]. split; [intros ev H; inversion H|]. split; [intros ev n H|intros n H]; inversion H.
Qed.
Lemma ptrace_vis e kk tr p : ptrace (Vis e kk) tr p -> p = Vis e kk \/ exists r tr', tr = obs e r :: tr' /\ ptrace (kk r) tr' p.
Proof.
  inversion 1; subst; [left; reflexivity|]. right. pose proof (pstep_vis _ _ _ H0) as (r & -> & ->). eauto.
Qed.
Lemma never_vis e kk : (forall r, never (kk r)) -> never (Vis e kk).
Proof. intros H tr Htr. apply ptrace_vis in Htr as [?|(r & tr' & -> & Htr)]; [discriminate|]. exact (H r _ Htr). Qed.

(** The next step claims [n'], completes [n], or neither. *)
Lemma cl_vis D e kk :
  (forall r, never (kk r) \/ (~ fails (obs e r) /\
     exists D', cl D' (kk r) /\ (forall n, claims (obs e r) = Some n -> n ∈ D') /\ (forall n, n ∈ D -> n ∈ D' \/ obs e r = ODone n))) ->
  cl D (Vis e kk).
Proof.
  intros H tr Htr. apply ptrace_vis in Htr as [?|(r & tr' & -> & Htr)]; [discriminate|].
  destruct (H r) as [Hn|(Hf & D' & HD & Hc & Hd)]; [destruct (Hn _ Htr)|]. destruct (HD _ Htr) as (A & B & C). split; [|split].
  - intros ev Hin. apply elem_of_cons in Hin as [->|Hin]; auto.
  - intros ev n Hin Hev. right. apply elem_of_cons in Hin as [->|Hin]; eauto.
  - intros n Hin. destruct (Hd n Hin) as [H1|<-]; [right; auto|left].
Qed.
(** A plain step. *)
Lemma cl_do D e kk : (forall r, never (kk r) \/ (~ fails (obs e r) /\ claims (obs e r) = None /\ cl D (kk r))) -> cl D (Vis e kk).
Proof.
  intros H. apply cl_vis. intros r. destruct (H r) as [Hn|(A & B & C)]; [left; exact Hn|right]. split; [exact A|]. exists D. split; [exact C|].
  split; [rewrite B; discriminate|auto].
Qed.

Lemma ptrace_bind p f tr x : ptrace (bind p f) tr (Ret x) ->
  exists tr1 tr2 r, tr = tr1 ++ tr2 /\ ptrace p tr1 (Ret r) /\ ptrace (f r) tr2 (Ret x).
Proof.
  intros H. remember (bind p f) as q eqn:Eq. remember (Ret x) as y eqn:Ey. revert p Eq Ey.
  induction H as [q|q ev q1 tr q2 Hs Htr IH]; intros p Eq Ey; subst.
  - destruct p; try discriminate. exists [], [], r. split; [reflexivity|]. split; [constructor|]. apply pt_nil.
  - destruct p as [r|e kk|t pa lim c chs log kk].
    { exists [], (ev :: tr), r. split; [reflexivity|]. split; [constructor|]. econstructor; eassumption. }
    all: apply pstep_bind_inv in Hs as (q' & Hs & ->); [|discriminate];
      destruct (IH q' eq_refl eq_refl) as (tr1 & tr2 & r & -> & H1 & H2);
      exists (ev :: tr1), tr2, r; (split; [reflexivity|]); (split; [econstructor; eassumption|exact H2]).
Qed.

Lemma cl_bind D p f : cl [] p -> cl D (f None) -> (forall e, never (f (Some e))) -> cl D (bind p f).
Proof.
  intros Hp Hf He tr Htr. apply ptrace_bind in Htr as (tr1 & tr2 & r & -> & H1 & H2).
  destruct r as [e|]; [destruct (He e _ H2)|]. destruct (Hp _ H1) as (A1 & B1 & _). destruct (Hf _ H2) as (A2 & B2 & C2). split; [|split].
  - intros ev H. apply elem_of_app in H as [H|H]; auto.
  - intros ev n H Hc. apply elem_of_app in H as [H|H]; apply elem_of_app; eauto.
  - intros n Hn. apply elem_of_app; auto.
Qed.
Lemma cl_then D p w kk : cl [] p -> cl D kk -> cl D (and_then p w kk).
Proof. intros Hp Hk. apply cl_bind; [exact Hp|exact Hk|]. intros e. apply never_err. Qed.

(** *** Blocks *)
Definition cont (acc : list event) (p : prog) : Prop := forall tr, ptrace p tr (Ret None) -> closed (acc ++ tr).
Lemma cl_cont p : cl [] p -> cont [] p.
Proof. intros H tr Htr. destruct (H tr Htr) as (A & B & _). split; assumption. Qed.
Lemma cont_step acc p ev p' : cont acc p -> pstep p ev p' -> cont (acc ++ [ev]) p'.
Proof. intros H Hs tr Htr. rewrite <- app_assoc. apply H. econstructor; eassumption. Qed.

Definition errless (log : list (nat * outcome)) : Prop := forall j r, (j, r) ∈ log -> r = None.

Record fork_inv (chs : list (cstat * prog)) (log : list (nat * outcome)) (acc : list event) (past : nat -> list event) : Prop := {
  fi_acc : forall ev, ev ∈ acc -> (claims ev = None /\ (~ fails ev \/ ~ errless log)) \/ exists j, ev ∈ past j;
  fi_past : forall j ev, ev ∈ past j -> ev ∈ acc;
  fi_child : forall j, match chs !! j with
    | Some (Waiting, p) => past j = [] /\ cont [] p
    | Some (Running, p) => cont (past j) p
    | Some (Reported, _) | Some (Released, _) => ~ errless log \/ closed (past j)
    | Some (Skipped, _) | None => past j = []
    end }.

Lemma fork_inv_join chs log acc past : fork_inv chs log acc past -> Forall finished chs -> errless log -> closed acc.
Proof.
  intros [Ha Hp Hc] Hf Hl.
  assert (Hcl : forall j, closed (past j)).
  { intros j. specialize (Hc j). destruct (chs !! j) as [[st p]|] eqn:E; [|rewrite Hc; apply closed_nil].
    rewrite Forall_lookup in Hf. specialize (Hf _ _ E). destruct st; destruct Hf as [Hf|Hf]; try discriminate.
    - destruct Hc as [Hc|Hc]; [contradiction|exact Hc].
    - rewrite Hc. apply closed_nil. }
  split.
  - intros ev Hin. destruct (Ha ev Hin) as [[_ [H|H]]|(j & Hj)]; [exact H|contradiction|]. apply (Hcl j). exact Hj.
  - intros ev n Hin Hn. destruct (Ha ev Hin) as [[H _]|(j & Hj)]; [congruence|]. apply (Hp j). destruct (Hcl j) as [_ H]. eauto.
Qed.

Lemma errless_app log j r : errless (log ++ [(j, r)]) -> errless log.
Proof. intros H j' r' Hin. apply (H j'). apply elem_of_app. left. exact Hin. Qed.

Lemma lookup_upd {A} (l : list A) j j' x y : l !! j = Some y -> <[j := x]> l !! j' = if decide (j' = j) then Some x else l !! j'.
Proof.
  intros H. destruct (decide (j' = j)) as [->|Hne]; [apply list_lookup_insert; apply lookup_lt_is_Some; eauto|].
  apply list_lookup_insert_ne. congruence.
Qed.

Definition ends_well (kk : list (nat * outcome) -> prog) : Prop :=
  forall log, cl [] (kk log) /\ forall tr, ptrace (kk log) tr (Ret None) -> first_err log = None.

Lemma fork_closed T pa lim c chs log kk acc past tr :
  ends_well kk -> fork_inv chs log acc past -> ptrace (Fork T pa lim c chs log kk) tr (Ret None) -> closed (acc ++ tr).
Proof.
  intros Hkk HI Htr. remember (Fork T pa lim c chs log kk) as q eqn:Eq. remember (Ret None) as y eqn:Ey.
  revert chs log acc past Eq Ey HI. induction Htr as [q|q ev q1 tr q2 Hs Htr IH]; intros chs log acc past Eq Ey HI; subst; [discriminate|].
  assert (Hplain : forall chs' past', claims ev = None -> ~ fails ev -> q1 = Fork T pa lim c chs' log kk ->
            (forall j, past' j = past j) ->
            (forall j, match chs' !! j with
              | Some (Waiting, p) => past j = [] /\ cont [] p
              | Some (Running, p) => cont (past j) p
              | Some (Reported, _) | Some (Released, _) => ~ errless log \/ closed (past j)
              | Some (Skipped, _) | None => past j = []
              end) -> closed (acc ++ ev :: tr)).
  { intros chs' past' Hcl Hf Eq1 _ Hc. change (ev :: tr) with ([ev] ++ tr). rewrite app_assoc. apply (IH chs' log _ past Eq1 eq_refl). constructor.
    - intros e Hin. apply elem_of_app in Hin as [Hin|Hin]; [apply (fi_acc _ _ _ _ HI); exact Hin|]. apply elem_of_list_singleton in Hin as ->. auto.
    - intros j e Hin. apply elem_of_app. left. eapply (fi_past _ _ _ _ HI). exact Hin.
    - exact Hc. }
  pose proof (fi_child _ _ _ _ HI) as Hch.
  inversion Hs; subst; try match goal with H : chs !! _ = _ |- _ => rename H into H7 end;
    try match goal with H : pstep ?p _ ?p', H7 : chs !! _ = Some (_, ?p) |- _ => rename H into H8 end;
    try match goal with H : Forall finished chs |- _ => rename H into H7 end.
  - (* a child *)
    change (ev :: tr) with ([ev] ++ tr). rewrite app_assoc.
    set (past' := fun i => if decide (i = j) then past j ++ [ev] else past i).
    apply (IH _ log _ past' eq_refl eq_refl). constructor.
    + intros e Hin. apply elem_of_app in Hin as [Hin|Hin].
      * destruct (fi_acc _ _ _ _ HI e Hin) as [H|(i & Hi)]; [left; exact H|right]. exists i. unfold past'. destruct (decide (i = j)) as [->|]; [apply elem_of_app; left|]; exact Hi.
      * apply elem_of_list_singleton in Hin as ->. right. exists j. unfold past'. rewrite decide_True by reflexivity. apply elem_of_app. right. left.
    + intros i e. unfold past'. rewrite elem_of_app. destruct (decide (i = j)) as [->|].
      * intros Hin. apply elem_of_app in Hin as [Hin|Hin]; [left; eapply (fi_past _ _ _ _ HI); exact Hin|right; exact Hin].
      * intros Hin. left. eapply (fi_past _ _ _ _ HI). exact Hin.
    + intros i. rewrite (lookup_upd _ _ _ _ _ H7). unfold past'. destruct (decide (i = j)) as [->|].
      * eapply cont_step; [|exact H8]. specialize (Hch j). rewrite H7 in Hch. exact Hch.
      * apply Hch.
  - (* a slot *)
    eapply (Hplain _ past); [reflexivity|auto|reflexivity|reflexivity|]. intros i. rewrite (lookup_upd _ _ _ _ _ H7). destruct (decide (i = j)) as [->|]; [|apply Hch].
    specialize (Hch j). rewrite H7 in Hch. destruct Hch as [-> Hch]. exact Hch.
  - (* given up *)
    eapply (Hplain _ past); [reflexivity|auto|reflexivity|reflexivity|]. intros i. rewrite (lookup_upd _ _ _ _ _ H7). destruct (decide (i = j)) as [->|]; [|apply Hch].
    specialize (Hch j). rewrite H7 in Hch. apply Hch.
  - (* returned *)
    change (OReturn T pa j r :: tr) with ([OReturn T pa j r] ++ tr). rewrite app_assoc.
    apply (IH _ (log ++ [(j, r)]) _ past eq_refl eq_refl). constructor.
    + intros e Hin. apply elem_of_app in Hin as [Hin|Hin].
      * destruct (fi_acc _ _ _ _ HI e Hin) as [[H1 [H2|H2]]|H]; [left; auto| |right; exact H]. left. split; [exact H1|right]. intros He. apply H2. eapply errless_app; exact He.
      * apply elem_of_list_singleton in Hin as ->. left. split; [reflexivity|]. destruct r as [e|]; [right|left; auto]. intros He.
        assert (Hx : (j, Some e) ∈ log ++ [(j, Some e)]) by (apply elem_of_app; right; left). apply He in Hx. discriminate.
    + intros i e Hin. apply elem_of_app. left. eapply (fi_past _ _ _ _ HI). exact Hin.
    + intros i. rewrite (lookup_upd _ _ _ _ _ H7). destruct (decide (i = j)) as [->|].
      * specialize (Hch j). rewrite H7 in Hch. destruct r as [e|].
        { left. intros He. assert (Hx : (j, Some e) ∈ log ++ [(j, Some e)]) by (apply elem_of_app; right; left). apply He in Hx. discriminate. }
        right. rewrite <- (app_nil_r (past j)). apply Hch. constructor.
      * specialize (Hch i). destruct (chs !! i) as [[[] p]|]; try exact Hch; (destruct Hch as [Hch|Hch]; [left; intros He; apply Hch; eapply errless_app; exact He|right; exact Hch]).
  - (* released *)
    eapply (Hplain _ past); [reflexivity|auto|reflexivity|reflexivity|]. intros i. rewrite (lookup_upd _ _ _ _ _ H7). destruct (decide (i = j)) as [->|]; [|apply Hch].
    specialize (Hch j). rewrite H7 in Hch. exact Hch.
  - (* joined *)
    destruct (Hkk log) as [Hcl E]. specialize (E _ Htr). destruct (Hcl _ Htr) as (A' & B' & _).
    assert (Hl : errless log).
    { clear -E. induction log as [|[j [e|]] log IH]; simpl in E; [intros j r H; inversion H|discriminate|].
      intros j' r Hin. apply elem_of_cons in Hin as [Hin|Hin]; [congruence|]. exact (IH E j' r Hin). }
    pose proof (fork_inv_join _ _ _ _ HI H7 Hl) as [A B]. split.
    + intros ev Hin. apply elem_of_app in Hin as [Hin|Hin]; [auto|]. apply elem_of_cons in Hin as [->|Hin]; auto.
    + intros ev n Hin Hn. apply elem_of_app. apply elem_of_app in Hin as [Hin|Hin]; [left; eauto|]. right. apply elem_of_cons in Hin as [->|Hin]; [discriminate|right; eauto].
Qed.

Section Runner.
  Context (k : config) (tasks : taskmap).

  Ltac plain := intros; right; split; [intros []|]; split; [reflexivity|].

  Lemma cl_env D ln vars env f : (forall m, cl D (f m)) -> cl D (interpolate_env_then k ln vars env f).
  Proof.
    intros Hf. unfold interpolate_env_then. destruct (decide _); [apply Hf|]. apply cl_do. plain.
    destruct (interpolate_env _ _ _ _); [apply Hf|apply cl_err].
  Qed.
  Lemma cl_dir D t pa ln c vars f : (forall d, cl D (f d)) -> cl D (resolve_dir_then k t pa ln c vars f).
  Proof.
    intros Hf. unfold resolve_dir_then. destruct (match (match c with [] => t_dir t | _ => c end) with [] => k_dir k | _ => _ end) eqn:E; [apply Hf|].
    destruct (interpolate _ _ _); [|apply cl_err]. apply cl_do. intros s. destruct s; try (left; apply never_err).
    right. split; [simpl; congruence|]. split; [reflexivity|]. apply Hf.
  Qed.
  Lemma cl_command c t pa l env a : cl [] (execute_command k c t pa l env a).
  Proof.
    unfold execute_command. destruct (trim_space (c_cmd c)); [apply cl_err|]. apply cl_do. plain.
    destruct (interpolate _ _ _); [|apply cl_err]. apply cl_env. intros cmdenv. apply cl_dir. intros d.
    destruct (k_dry k); [apply cl_do; plain; apply cl_ret|].
    set (go := Vis (EOrder cmdenv) _). assert (cl [] go) as Hgo.
    { unfold go. apply cl_do. plain. apply cl_do. intros started. destruct started; [|left; apply never_err].
      right. split; [intros []|]. split; [reflexivity|]. apply cl_do. intros ok. destruct ok; [|left; apply never_err].
      right. split; [intros []|]. split; [reflexivity|]. apply cl_ret. }
    destruct (is_silent _); [exact Hgo|]. apply cl_do. plain. exact Hgo.
  Qed.

  Section Calls.
    Context (rt : str -> args -> prog) (Hrt : forall n a, cl [] (rt n a)).

    Lemma cl_run_item it t pa l env a : cl [] (execute_run_item k rt it t pa l env a).
    Proof.
      destruct it; simpl; try apply cl_err; [apply cl_command| |].
      - destruct (k_dry k); [apply cl_do; plain; apply cl_ret|apply Hrt].
      - apply cl_do. plain. destruct (interpolate _ _ _); [|apply cl_err]. destruct (k_dry k); apply cl_do; plain; apply cl_ret.
    Qed.

    Lemma cl_pre_deps deps seen a kk : (forall s, cl [] (kk s)) -> cl [] (pre_deps rt deps seen a kk).
    Proof.
      intros Hk. revert seen. induction deps as [|d deps IH]; intros seen; simpl; [apply Hk|]. destruct (decide _); [apply IH|].
      apply cl_do. plain. destruct r; try apply IH; (apply cl_then; [apply Hrt|apply IH]).
    Qed.
    Lemma cl_pre_resolve items seen a : cl [] (pre_resolve tasks rt items seen a).
    Proof.
      revert seen. induction items as [|it items IH]; intros seen; simpl; [apply cl_ret|]. destruct it; try apply IH.
      destruct (tasks !! r_task t); [|apply cl_err]. apply cl_pre_deps. intros s. apply IH.
    Qed.
    Lemma cl_fork o items t pa l env c sub kk : ends_well kk -> cl [] (fork k rt o items t pa l env c sub kk).
    Proof.
      intros Hkk tr Htr. unfold fork in Htr.
      assert (HI : fork_inv (imap (fun j it => (Waiting, execute_run_item k rt it t (pa ++ [j]) l env (sub j))) items) [] [] (fun _ => [])).
      { constructor.
        - intros ev H. inversion H.
        - intros j ev H. inversion H.
        - intros j. rewrite list_lookup_imap. destruct (items !! j); simpl; [|reflexivity]. split; [reflexivity|]. apply cl_cont. apply cl_run_item. }
      destruct (fork_closed _ _ _ _ _ _ _ _ _ _ Hkk HI Htr) as [A B]. split; [exact A|]. split; [exact B|]. intros n H. inversion H.
    Qed.
    Lemma cl_parallel o items t pa l env a : cl [] (execute_parallel k tasks rt o items t pa l env a).
    Proof.
      unfold execute_parallel. apply cl_then; [apply cl_pre_resolve|]. destruct (k_dry k); [apply cl_do; plain; apply cl_ret|].
      assert (H0 : ends_well (fun log => Ret (first_err log))).
      { intros log. split; [apply cl_ret|]. intros tr H. apply ptrace_ret in H as [_ H]. congruence. }
      destruct (is_tui_mode _ && _ && _); [|apply cl_fork; exact H0]. unfold execute_tui. simpl.
      match goal with |- context [fork _ _ _ _ _ _ _ _ _ _ ?f] => assert (H1 : ends_well f) end.
      { intros log. destruct (is_silent _); [apply H0|]. split; [apply cl_do; plain; apply cl_ret|].
        intros tr H. apply ptrace_vis in H as [?|(r & tr' & -> & H)]; [discriminate|]. apply ptrace_ret in H as [_ H]. congruence. }
      destruct (a_tui a); [apply cl_fork; exact H1|].
      apply cl_do. plain. apply cl_do. intros ok. destruct ok; [|left; apply never_err]. right. split; [intros []|]. split; [reflexivity|]. apply cl_fork. exact H1.
    Qed.
    Lemma cl_item it t i l env a : cl [] (execute_item k tasks rt it t i l env a).
    Proof.
      destruct it; try apply cl_run_item; simpl.
      - apply cl_do. plain. destruct (interpolate_prompt _ _ _); [|apply cl_err]. destruct (k_dry k); [apply cl_do; plain; apply cl_ret|].
        apply cl_do. intros [v|]; [|left; apply never_err]. right. split; [intros []|]. split; [reflexivity|]. apply cl_do. plain. apply cl_ret.
      - destruct (k_dry k); [apply cl_do; plain; apply cl_ret|]. apply cl_do. plain. apply cl_do. plain. apply cl_parallel.
    Qed.
    Lemma cl_items items t i ex sk l env a : cl [] (execute_items k tasks rt items t i ex sk l env a).
    Proof.
      revert i ex sk. induction items as [|it items IH]; intros i ex sk; [simpl; destruct ex, sk; apply cl_ret|]. simpl.
      apply cl_do. intros done. destruct done; [left; apply never_err|]. right. split; [intros []|]. split; [reflexivity|].
      destruct (negb _); [apply cl_do; plain; apply IH|].
      set (go := bind _ _). assert (cl [] go) as Hgo.
      { unfold go. apply cl_bind; [apply cl_item| |].
        - apply cl_do. plain. apply IH.
        - intros e. apply never_vis. intros _. apply never_err. }
      destruct (item_when it) as [|x w]; [exact Hgo|]. apply cl_do. plain. destruct (evaluate _ _ _) as [[|]|]; [exact Hgo| |apply cl_err].
      apply cl_do. plain. apply IH.
    Qed.
    Lemma cl_task t a : cl [] (execute_task k tasks rt t a).
    Proof.
      unfold execute_task. destruct (t_vars t).
      - apply cl_do. plain. apply cl_do. plain. destruct (resolve_vars _ _ _ _); [|apply cl_err]. apply cl_do. plain. apply cl_env. intros m. apply cl_items.
      - apply cl_do. plain. apply cl_env. intros m. apply cl_items.
    Qed.
    Lemma cl_deps D n deps a kk : cl D kk -> cl D (run_deps rt n deps a kk).
    Proof. intros Hk. induction deps as [|d deps IH]; simpl; [exact Hk|]. apply cl_then; [apply Hrt|exact IH]. Qed.
  End Calls.

  Lemma cl_run_task fuel n a : cl [] (run_task k tasks fuel n a).
  Proof.
    revert n a. induction fuel as [|fuel IH]; intros n a; simpl; [apply cl_err|].
    assert (Hdone : cl [n] (Vis (EDone n) (fun _ => Ret None))).
    { apply cl_vis. intros u. right. split; [intros []|]. exists []. split; [apply cl_ret|]. split; [discriminate|].
      intros n' H. apply elem_of_list_singleton in H as ->. right. reflexivity. }
    apply cl_vis. intros s. destruct s.
    - (* fresh *)
      right. split; [intros []|]. exists [n]. split; [|split; [simpl; intros n' H; injection H as ->; left|intros n' H; inversion H]].
      destruct (tasks !! n) as [t|]; [|apply cl_err].
      set (rest := run_deps _ _ _ _ _). assert (cl [n] rest) as Hrest.
      { unfold rest. apply cl_deps; [exact IH|]. destruct (t_run t); [exact Hdone|]. apply cl_then; [apply cl_task; exact IH|exact Hdone]. }
      set (body := if _ && _ then _ else rest). assert (cl [n] body) as Hbody.
      { unfold body. destruct (_ && _); [|exact Hrest]. apply cl_do. plain. exact Hrest. }
      destruct (t_when t); [exact Hbody|]. apply cl_do. plain. destruct (evaluate _ _ _) as [[|]|]; [exact Hbody| |apply cl_err].
      apply cl_do. plain. exact Hdone.
    - (* active *)
      left. apply never_vis. intros m. apply never_err.
    - (* done *)
      right. split; [intros []|]. exists []. split; [apply cl_ret|]. split; [discriminate|intros n' H; inversion H].
  Qed.
End Runner.

(** The events of a run are those of the program, and cancellations. *)
Lemma run_trace g h p h' p' : rtc (cstep g) (h, p) (h', p') ->
  exists tr, ptrace p tr p' /\ (forall ev, ev ∈ h' -> ev ∈ tr \/ (exists i, ev = OCancel i) \/ ev ∈ h) /\ (forall ev, ev ∈ tr -> ev ∈ h') /\ h `suffix_of` h'.
Proof.
  intros H. remember (h, p) as x eqn:Ex. remember (h', p') as y eqn:Ey. revert h p Ex h' p' Ey.
  induction H as [x|x y z Hxy Hyz IH]; intros h p Ex h' p' Ey.
  - rewrite Ey in Ex. injection Ex as -> ->. exists []. split; [constructor|]. split; [auto|]. split; [intros ev H; inversion H|reflexivity].
  - subst. inversion Hxy; subst.
    + destruct (IH _ _ eq_refl _ _ eq_refl) as (tr & T1 & T2 & T3 & T4). exists (ev :: tr). split; [econstructor; eassumption|]. split; [|split].
      * intros e Hin. destruct (T2 e Hin) as [H|[H|H]]; [left; right; exact H|auto|]. apply elem_of_cons in H as [->|H]; [left; left|auto].
      * intros e Hin. apply elem_of_cons in Hin as [->|Hin]; [eapply suffix_elem; [exact T4|left]|auto].
      * etransitivity; [apply suffix_cons_self|exact T4].
    + destruct (IH _ _ eq_refl _ _ eq_refl) as (tr & T1 & T2 & T3 & T4). exists tr. split; [exact T1|]. split; [|split; [exact T3|]].
      * intros e Hin. destruct (T2 e Hin) as [H|[H|H]]; [auto|auto|]. apply elem_of_cons in H as [->|H]; [right; left; eauto|auto].
      * etransitivity; [apply suffix_cons_self|exact T4].
Qed.

Theorem run_success k tasks root h : rtc (cstep (k_vars k)) ([], run_with_tasks k tasks root) (h, Ret None) ->
  (forall ev, ev ∈ h -> ~ fails ev) /\ (forall n sc, OClaim n sc Fresh ∈ h -> ODone n ∈ h).
Proof.
  intros H. apply run_trace in H as (tr & H1 & H2 & H3 & _). destruct (cl_run_task k tasks _ _ _ _ H1) as (A & B & _). split.
  - intros ev Hin. destruct (H2 ev Hin) as [H|[(i & ->)|H]]; [auto|intros []|inversion H].
  - intros n sc Hin. destruct (H2 _ Hin) as [H|[(i & H)|H]]; [|discriminate|inversion H]. apply H3. eapply B; [exact H|reflexivity].
Qed.
