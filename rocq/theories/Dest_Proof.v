(** What programs say, knowing what has happened. *)
From Verif Require Import Base Interp_Model Cond_Model Types_Model Path_Model Run_Model Run_Logic Run_Spec Dest_Spec.
From Verif Require Label_Model.

Notation facts := (event -> Prop).
Definition add (F : facts) (ev : event) : facts := fun x => F x \/ x = ev.

Section Tells.
  Context (Q : facts -> eff -> Prop) (Qmono : forall (F F' : facts) e, (forall x, F x -> F' x) -> Q F e -> Q F' e).

  Inductive tells : facts -> prog -> Prop :=
  | tl_ret (F : facts) r : tells F (Ret r)
  | tl_vis (F : facts) e kk : Q F e -> (forall r, tells (add F (obs e r)) (kk r)) -> tells F (Vis e kk)
  | tl_fork (F : facts) t p lim c chs log kk :
      (forall j st q, chs !! j = Some (st, q) -> tells F q) ->
      (forall j r, (j, r) ∈ log -> F (OReturn t p j r)) ->
      (forall j st q, chs !! j = Some (st, q) -> st = Reported \/ st = Released -> exists r, (j, r) ∈ log) ->
      (forall j q, chs !! j = Some (Skipped, q) -> F (OGiveUp t p j c)) ->
      (forall (F' : facts) log', (forall x, F x -> F' x) -> (forall j r, (j, r) ∈ log' -> F' (OReturn t p j r)) ->
         (forall j, j < length chs -> (exists r, (j, r) ∈ log') \/ F' (OGiveUp t p j c)) -> tells F' (kk log')) ->
      tells F (Fork t p lim c chs log kk).

  Lemma tells_mono F p : tells F p -> forall F' : facts, (forall x, F x -> F' x) -> tells F' p.
  Proof.
    induction 1 as [F r|F e kk HQ Hk IH|F t p lim c chs log kk Hc IHc Hl Hr Hg Hk IHk]; intros F' HF.
    - constructor.
    - constructor; [eapply Qmono; eassumption|]. intros r. apply IH. intros x [H|H]; [left; auto|right; exact H].
    - constructor; eauto.
  Qed.

  Lemma tells_more F ev p : tells F p -> tells (add F ev) p.
  Proof. intros H. eapply tells_mono; [exact H|]. intros x Hx. left. exact Hx. Qed.

  Lemma tells_bind F p f : tells F p -> (forall (F' : facts) r, (forall x, F x -> F' x) -> tells F' (f r)) -> tells F (bind p f).
  Proof.
    induction 1 as [F r|F e kk HQ Hk IH|F t p lim c chs log kk Hc IHc Hl Hr Hg Hk IHk]; intros Hf; cbn [bind].
    - apply Hf. auto.
    - constructor; [exact HQ|]. intros r. apply IH. intros F' r' HF. apply Hf. intros x Hx. apply HF. left. exact Hx.
    - constructor; eauto.
  Qed.
  Lemma tells_then F p w q : tells F p -> (forall F' : facts, (forall x, F x -> F' x) -> tells F' q) -> tells F (and_then p w q).
  Proof. intros Hp Hq. apply tells_bind; [exact Hp|]. intros F' [e|] HF; [constructor|apply Hq; exact HF]. Qed.

  Definition tells_inv_of (F : facts) (p : prog) : Prop :=
    match p with
    | Ret _ => True
    | Vis e kk => Q F e /\ forall r, tells (add F (obs e r)) (kk r)
    | Fork t p lim c chs log kk =>
        (forall j st q, chs !! j = Some (st, q) -> tells F q) /\
        (forall j r, (j, r) ∈ log -> F (OReturn t p j r)) /\
        (forall j st q, chs !! j = Some (st, q) -> st = Reported \/ st = Released -> exists r, (j, r) ∈ log) /\
        (forall j q, chs !! j = Some (Skipped, q) -> F (OGiveUp t p j c)) /\
        (forall (F' : facts) log', (forall x, F x -> F' x) -> (forall j r, (j, r) ∈ log' -> F' (OReturn t p j r)) ->
           (forall j, j < length chs -> (exists r, (j, r) ∈ log') \/ F' (OGiveUp t p j c)) -> tells F' (kk log'))
    end.
  Lemma tells_inv F p : tells F p -> tells_inv_of F p.
  Proof. destruct 1; cbn; auto 10. Qed.

  Lemma tells_step p ev p' : pstep p ev p' -> forall F, tells F p -> tells (add F ev) p'.
  Proof.
    assert (Hu : forall (chs : list (cstat * prog)) j st q j' st' q', <[j := (st, q)]> chs !! j' = Some (st', q') ->
              (j' = j /\ st' = st /\ q' = q) \/ (j' <> j /\ chs !! j' = Some (st', q'))).
    { intros chs j st q j' st' q' Hx. destruct (decide (j' = j)) as [->|Hne].
      - left. apply list_lookup_insert_Some in Hx as [(_ & E & _)|(Hne & _)]; [|congruence]. injection E as <- <-. auto.
      - right. rewrite list_lookup_insert_ne in Hx by congruence. auto. }
    induction 1 as [e kk r|t pa lim c chs log kk j q ev q' Hj Hq IH|t pa lim c chs log kk j q Hj Hl|t pa lim c chs log kk j q Hj Hl|t pa lim c chs log kk j r Hj|t pa lim c chs log kk j q Hj|t pa lim c chs log kk Hf];
      intros F HT; apply tells_inv in HT; cbn [tells_inv_of] in HT.
    { apply HT. }
    all: destruct HT as (Hc & Hlog & Hr & Hg & Hk).
    all: assert (Hadd : forall x ev, F x -> add F ev x) by (intros; left; assumption).
    - constructor.
      + intros j' st' p'' H. apply Hu in H as [(-> & -> & ->)|[_ H]]; [exact (IH _ (Hc _ _ _ Hj))|]. eapply tells_mono; [exact (Hc _ _ _ H)|auto].
      + intros; left; auto.
      + intros j' st' p'' H Hst. apply Hu in H as [(-> & -> & ->)|[_ H]]; [destruct Hst; discriminate|eauto].
      + intros j' p'' H. apply Hu in H as [(-> & E & ->)|[_ H]]; [discriminate|left; eauto].
      + intros F' log' HF H1 H2. rewrite insert_length in H2. apply Hk; auto.
    - constructor.
      + intros j' st' p'' H. apply Hu in H as [(-> & -> & ->)|[_ H]]; apply tells_more; [exact (Hc _ _ _ Hj)|exact (Hc _ _ _ H)].
      + intros; left; auto.
      + intros j' st' p'' H Hst. apply Hu in H as [(-> & -> & ->)|[_ H]]; [destruct Hst; discriminate|eauto].
      + intros j' p'' H. apply Hu in H as [(-> & E & ->)|[_ H]]; [discriminate|left; eauto].
      + intros F' log' HF H1 H2. rewrite insert_length in H2. apply Hk; auto.
    - constructor.
      + intros j' st' p'' H. apply Hu in H as [(-> & -> & ->)|[_ H]]; apply tells_more; [exact (Hc _ _ _ Hj)|exact (Hc _ _ _ H)].
      + intros; left; auto.
      + intros j' st' p'' H Hst. apply Hu in H as [(-> & -> & ->)|[_ H]]; [destruct Hst; discriminate|eauto].
      + intros j' p'' H. apply Hu in H as [(-> & E & ->)|[_ H]]; [right; reflexivity|left; eauto].
      + intros F' log' HF H1 H2. rewrite insert_length in H2. apply Hk; auto.
    - constructor.
      + intros j' st' p'' H. apply Hu in H as [(-> & -> & ->)|[_ H]]; apply tells_more; [exact (Hc _ _ _ Hj)|exact (Hc _ _ _ H)].
      + intros j' r' H. apply elem_of_app in H as [H|H]; [left; auto|]. apply elem_of_list_singleton in H as [= -> ->]. right. reflexivity.
      + intros j' st' p'' H Hst. apply Hu in H as [(-> & -> & ->)|[_ H]]; [exists r; apply elem_of_app; right; left|].
        destruct (Hr _ _ _ H Hst) as (r' & Hr'). exists r'. apply elem_of_app. left. exact Hr'.
      + intros j' p'' H. apply Hu in H as [(-> & E & ->)|[_ H]]; [discriminate|left; eauto].
      + intros F' log' HF H1 H2. rewrite insert_length in H2. apply Hk; auto.
    - constructor.
      + intros j' st' p'' H. apply Hu in H as [(-> & -> & ->)|[_ H]]; apply tells_more; [exact (Hc _ _ _ Hj)|exact (Hc _ _ _ H)].
      + intros; left; auto.
      + intros j' st' p'' H Hst. apply Hu in H as [(-> & -> & ->)|[_ H]]; eauto.
      + intros j' p'' H. apply Hu in H as [(-> & E & ->)|[_ H]]; [discriminate|left; eauto].
      + intros F' log' HF H1 H2. rewrite insert_length in H2. apply Hk; auto.
    - apply Hk; [auto|intros; left; auto|]. intros j Hj. destruct (lookup_lt_is_Some_2 chs j Hj) as [[st q] E].
      rewrite Forall_lookup in Hf. specialize (Hf _ _ E). destruct Hf as [Hf|Hf]; cbn in Hf; subst st; [left; eauto|right; left; eauto].
  Qed.

  (** What a step says. *)
  Lemma tells_said p ev p' : pstep p ev p' -> forall F, tells F p -> forall e r, ev = obs e r -> Q F e.
  Proof.
    assert (Hinj : forall e r e' r', obs e r = obs e' r' -> e = e').
    { intros e r e' r' H. destruct e, e'; cbn in H; try discriminate H; injection H; intros; subst; reflexivity. }
    induction 1 as [e kk r|t pa lim c chs log kk j q ev q' Hj Hq IH|t pa lim c chs log kk j q Hj Hl|t pa lim c chs log kk j q Hj Hl|t pa lim c chs log kk j r Hj|t pa lim c chs log kk j q Hj|t pa lim c chs log kk Hf];
      intros F HT e' r' E; apply tells_inv in HT; cbn [tells_inv_of] in HT.
    - apply Hinj in E as <-. apply HT.
    - eapply IH; [|exact E]. eapply HT. exact Hj.
    - destruct e'; discriminate E.
    - destruct e'; discriminate E.
    - destruct e'; discriminate E.
    - destruct e'; discriminate E.
    - destruct e'; discriminate E.
  Qed.

  Lemma tells_run g x h p : tells (fun _ => False) x -> rtc (cstep g) ([], x) (h, p) -> forall e r, obs e r ∈ h -> Q (fun ev => ev ∈ h) e.
  Proof.
    intros Hx Hr. enough (G : forall s s', rtc (cstep g) s s' -> tells (fun ev => ev ∈ s.1) s.2 -> (forall e r, obs e r ∈ s.1 -> Q (fun ev => ev ∈ s.1) e) ->
      forall e r, obs e r ∈ s'.1 -> Q (fun ev => ev ∈ s'.1) e).
    { apply (G _ _ Hr); cbn; [eapply tells_mono; [exact Hx|intros ? []]|]. intros e r H. inversion H. }
    induction 1 as [s|s1 s2 s3 H _ IH]; [auto|]. intros HT HQ. destruct H as [h0 p0 ev p1 Hs Ha|h0 p0 i]; cbn in *; apply IH; cbn.
    - eapply tells_mono; [exact (tells_step _ _ _ Hs _ HT)|]. intros y [H| ->]; [right; exact H|left].
    - intros e r H. eapply Qmono; [intros y Hy; right; exact Hy|]. apply elem_of_cons in H as [H|H]; [|exact (HQ _ _ H)]. symmetry in H. exact (tells_said _ _ _ Hs _ HT _ _ H).
    - eapply tells_mono; [exact HT|]. intros y Hy. right. exact Hy.
    - intros e r H. eapply Qmono; [intros y Hy; right; exact Hy|]. apply elem_of_cons in H as [H|H]; [destruct e; discriminate H|exact (HQ _ _ H)].
  Qed.
End Tells.

(** ** The runner *)
Section Runner.
  Context (k : config) (tasks : taskmap) (Hkeyed : forall n t, tasks !! n = Some t -> t_name t = n).

  (** What each line must satisfy when it is written. *)
  Definition said (F : facts) (e : eff) : Prop :=
    match e with
    | EHeader n _ d => exists s, F (OClaim n s Fresh) /\ addressed tasks (k_terminal k) d (around s)
    | EEcho t p _ d | ELog t p _ _ d => exists s, F (OClaim t s Fresh) /\ addressed tasks (k_terminal k) d (item_around t p s)
    | EStart x => exists s, F (OClaim (x_task x) s Fresh) /\ addressed tasks (k_terminal k) (x_out x) (item_around (x_task x) (x_path x) s)
    | ESummary t p fine d => exists s tk i o items, F (OClaim t s Fresh) /\ tasks !! t = Some tk /\ p = [i] /\ t_run tk !! i = Some (RPar o items) /\
        addressed tasks (k_terminal k) d (around s) /\ is_silent [first_set (q_silent o) (override_silent s); t_silent tk; k_silent k] = false /\ length fine = length items /\
        forall (j : nat) (b : bool), fine !! j = Some b -> if b then F (OReturn t p j None) else (exists e, F (OReturn t p j (Some e))) \/ exists c, F (OGiveUp t p j c)
    | _ => True
    end.
  Lemma said_mono (F F' : facts) e : (forall x, F x -> F' x) -> said F e -> said F' e.
  Proof.
    intros HF. destruct e; cbn; auto.
    - intros (s & H1 & H2). eauto.
    - intros (s & H1 & H2). eauto.
    - intros (s & H1 & H2). eauto.
    - intros (s & H1 & H2). eauto.
    - intros (s & tk & i & o & items & H1 & H2 & H3 & H4 & H5 & H5' & H6 & H7). exists s, tk, i, o, items. split; [auto|]. repeat (split; [assumption|]).
      intros j b Hj. specialize (H7 j b Hj). destruct b; [auto|]. destruct H7 as [(e & H7)|(c & H7)]; eauto.
  Qed.
  Notation tells := (tells said).

  (** The writers an execution is given match where it is. *)
  Definition placed (a : args) (l : list (str * nat * nat)) : Prop :=
    addressed tasks (k_terminal k) (a_out a) l /\ (forall path, a_tui a = Some path -> a_out a = [WKey path]) /\ a_silent a = override_silent (a_scope a).

  Definition grows (F F' : facts) : Prop := forall x, F x -> F' x.
  Lemma grows_add F ev : grows F (add F ev). Proof. intros x H. left. exact H. Qed.
  Lemma grows_trans F1 F2 F3 : grows F1 F2 -> grows F2 F3 -> grows F1 F3. Proof. intros H1 H2 x H. auto. Qed.

  (** A step that says nothing. *)
  Lemma tl_quiet (F : facts) e kk : match e with EHeader _ _ _ | EEcho _ _ _ _ | ELog _ _ _ _ _ | EStart _ | ESummary _ _ _ _ => False | _ => True end ->
    (forall (F' : facts) r, grows F F' -> tells F' (kk r)) -> tells F (Vis e kk).
  Proof. intros He Hk. constructor; [destruct e; try contradiction; exact I|]. intros r. apply Hk. apply grows_add. Qed.

  Lemma tl_env (F : facts) ln vars env f : (forall (F' : facts) m, grows F F' -> tells F' (f m)) -> tells F (interpolate_env_then k ln vars env f).
  Proof.
    intros H. unfold interpolate_env_then. case_decide; [apply H; intros x Hx; exact Hx|]. apply tl_quiet; [exact I|]. intros F' order HF.
    destruct (interpolate_env _ _ _ _); [apply H; exact HF|constructor].
  Qed.
  Lemma tl_dir (F : facts) t pa ln d vars f : (forall (F' : facts) d, grows F F' -> tells F' (f d)) -> tells F (resolve_dir_then k t pa ln d vars f).
  Proof.
    intros H. unfold resolve_dir_then. destruct (match _ with [] => k_dir k | _ => _ end); [apply H; intros x Hx; exact Hx|]. destruct (interpolate _ _ _); [|constructor].
    apply tl_quiet; [exact I|]. intros F' [] HF; try constructor. apply H. exact HF.
  Qed.

  Lemma tl_command (F : facts) c t pa l env a s : F (OClaim (t_name t) s Fresh) -> addressed tasks (k_terminal k) (a_out a) (item_around (t_name t) pa s) ->
    tells F (execute_command k c t pa l env a).
  Proof.
    intros HF Ha. unfold execute_command. destruct (trim_space _); [constructor|]. apply tl_quiet; [exact I|]. intros F1 vars H1.
    destruct (interpolate _ _ _) as [cmd|]; [|constructor]. apply tl_env. intros F2 cmdenv H2. apply tl_dir. intros F3 d H3.
    assert (C3 : F3 (OClaim (t_name t) s Fresh)) by auto.
    destruct (k_dry k); [apply tl_quiet; [exact I|]; intros; constructor|].
    match goal with |- tells F3 (if _ then ?g else Vis _ (fun _ => ?g)) => assert (G : forall F4 : facts, grows F3 F4 -> tells F4 g) end.
    { intros F4 H4. apply tl_quiet; [exact I|]. intros F5 order H5. constructor; [exists s; cbn; split; [apply H5, H4, C3|exact Ha]|].
      intros []; [|constructor]. apply tl_quiet; [exact I|]. intros F6 [] _; constructor. }
    destruct (is_silent _); [apply G; intros x Hx; exact Hx|]. constructor; [exists s; split; [exact C3|exact Ha]|]. intros r. apply G. apply grows_add.
  Qed.

  Section Calls.
    Context (rt : str -> args -> prog) (Hrt : forall n a F, placed a (around (a_scope a)) -> tells F (rt n a)).

    Lemma tl_run_item (F : facts) it t pa l env a s : F (OClaim (t_name t) s Fresh) -> (exists i, pa = [i]) \/ (exists i j, pa = [i; j]) -> placed a (item_around (t_name t) pa s) ->
      around (a_scope a) = around s -> tells F (execute_run_item k rt it t pa l env a).
    Proof.
      intros HF Hpa Ha Hs. destruct it as [c|r|lg|q|o items]; cbn; try constructor.
      - eapply tl_command; [exact HF|apply Ha].
      - destruct (k_dry k); [apply tl_quiet; [exact I|]; intros; constructor|]. apply Hrt.
        destruct Ha as (A1 & A2 & A3). split; [|split; [exact A2|]]; cbn.
        + destruct Hpa as [(i & ->)|(i & j & ->)]; cbn in A1 |- *; rewrite Hs; exact A1.
        + rewrite A3. destruct (r_silent r); [reflexivity|]. cbn. destruct (override_silent (a_scope a)); reflexivity.
      - exact I.
      - intros vars. destruct (interpolate _ _ _); [|constructor]. destruct (k_dry k); [apply tl_quiet; [exact I|]; intros; constructor|].
        constructor; [|intros; constructor]. exists s. split; [apply grows_add; exact HF|apply Ha].
    Qed.

    Lemma tl_pre_deps (F : facts) deps seen a kk : placed a (around (a_scope a)) -> (forall (F' : facts) seen, grows F F' -> tells F' (kk seen)) -> tells F (pre_deps rt deps seen a kk).
    Proof.
      intros Ha. revert F seen. induction deps as [|d deps IH]; intros F seen Hk; cbn; [apply Hk; intros x Hx; exact Hx|].
      assert (IH' : forall (F' : facts) seen, grows F F' -> tells F' (pre_deps rt deps seen a kk)).
      { intros F' seen' HF. apply IH. intros F2 seen2 H2. apply Hk. eapply grows_trans; eassumption. }
      case_decide; [apply IH'; intros x Hx; exact Hx|]. apply tl_quiet; [exact I|].
      intros F1 [] H1; try (apply IH'; exact H1); (apply tells_then; [apply Hrt; exact Ha|intros F2 H2; apply IH'; eapply grows_trans; eassumption]).
    Qed.
    Lemma tl_pre_resolve (F : facts) items seen a : placed a (around (a_scope a)) -> tells F (pre_resolve tasks rt items seen a).
    Proof.
      intros Ha. revert F seen. induction items as [|it items IH]; intros F seen; cbn; [constructor|].
      destruct it as [c|r|lg|q|o is]; try apply IH. destruct (tasks !! r_task r); [|constructor]. apply tl_pre_deps; [exact Ha|]. intros. apply IH.
    Qed.

    Lemma tl_items_of (F : facts) o items t pa l env c sub kk s : F (OClaim (t_name t) s Fresh) -> (exists i, pa = [i]) ->
      (forall j, j < length items -> placed (sub j) (item_around (t_name t) (pa ++ [j]) s) /\ around (a_scope (sub j)) = around s) ->
      (forall (F' : facts) log, grows F F' -> (forall j r, (j, r) ∈ log -> F' (OReturn (t_name t) pa j r)) ->
         (forall j, j < length items -> (exists r, (j, r) ∈ log) \/ F' (OGiveUp (t_name t) pa j c)) -> tells F' (kk log)) ->
      tells F (fork k rt o items t pa l env c sub kk).
    Proof.
      intros HF [i ->] Hsub Hk. unfold fork. constructor.
      - intros j st q Hj. apply list_lookup_imap_Some in Hj as (it & Hj & E). injection E as -> ->.
        destruct (Hsub j) as [S1 S2]; [apply lookup_lt_is_Some; eauto|]. eapply tl_run_item; [exact HF|right; exists i, j; reflexivity|exact S1|exact S2].
      - intros j r H. inversion H.
      - intros j st q Hj Hst. apply list_lookup_imap_Some in Hj as (it & Hj & E). injection E as -> ->. destruct Hst; discriminate.
      - intros j q Hj. apply list_lookup_imap_Some in Hj as (it & Hj & E). discriminate.
      - intros F' log' HF' H1 H2. rewrite imap_length in H2. apply Hk; assumption.
    Qed.

    Lemma succeeded_spec log j : succeeded log j = true <-> (j, None) ∈ log.
    Proof.
      unfold succeeded. rewrite existsb_exists. split.
      - intros ([j' [e|]] & Hin & E); cbn in E; rewrite ?andb_false_r in E; [discriminate|]. rewrite andb_true_r in E. apply Nat.eqb_eq in E as ->. apply elem_of_list_In. exact Hin.
      - intros H. exists (j, None). split; [apply elem_of_list_In; exact H|]. cbn. rewrite Nat.eqb_refl. reflexivity.
    Qed.

    Lemma tl_parallel (F : facts) o items t i l env a s : tasks !! t_name t = Some t -> t_run t !! i = Some (RPar o items) -> F (OClaim (t_name t) s Fresh) -> placed a (around s) -> a_scope a = s ->
      tells F (execute_parallel k tasks rt o items t [i] l env a).
    Proof.
      intros Ht Hi HF (A1 & A2 & A3) Hs. unfold execute_parallel.
      assert (Esil : match q_silent o with None => a_silent a | b => b end = first_set (q_silent o) (override_silent s)) by (rewrite A3, Hs; destruct (q_silent o); reflexivity).
      apply tells_then.
      { apply tl_pre_resolve. split; [|split; [exact A2|cbn; rewrite Hs; exact Esil]]. cbn. rewrite Hs. exact A1. }
      intros F1 H1. assert (C1 : F1 (OClaim (t_name t) s Fresh)) by auto. destruct (k_dry k); [apply tl_quiet; [exact I|]; intros; constructor|].
      assert (R : forall (F' : facts) r, tells F' (Ret r)) by (intros; constructor).
      destruct (_ && _) eqn:Eu.
      - assert (Hterm : k_terminal k = true) by (destruct (k_terminal k); [reflexivity|rewrite andb_false_r in Eu; discriminate Eu]).
        unfold execute_tui. cbn [a_tui a_out a_ctx].
        match goal with |- context [fork _ _ _ _ _ _ _ _ _ _ ?f] => set (finish := f) end.
        assert (Hbase : a_out a = match a_tui a with None => [] | Some path => [WKey path] end).
        { destruct (a_tui a) as [path|] eqn:Et; [apply A2; reflexivity|]. unfold a_piped, a_in_tui in Eu. rewrite Et in Eu.
          destruct (a_out a); [reflexivity|]. rewrite andb_false_r in Eu. discriminate. }
        assert (Hfin : forall c (F2 : facts) log, grows F1 F2 -> (forall j r, (j, r) ∈ log -> F2 (OReturn (t_name t) [i] j r)) ->
          (forall j, j < length items -> (exists r, (j, r) ∈ log) \/ F2 (OGiveUp (t_name t) [i] j c)) -> tells F2 (finish log)).
        { intros c F2 log H2 L1 L2. unfold finish. destruct (is_silent _) eqn:Esl; [apply R|]. constructor; [|intros; apply R].
          exists s, t, i, o, items. split; [apply H2; exact C1|]. split; [exact Ht|]. split; [reflexivity|]. split; [exact Hi|].
          split; [rewrite <- Hbase; exact A1|]. split; [cbn in Esl; rewrite Esil in Esl; exact Esl|]. split; [apply imap_length|]. intros j b Hj. apply list_lookup_imap_Some in Hj as (it & Hj & ->).
          destruct (succeeded log j) eqn:Es; [apply L1, succeeded_spec; exact Es|].
          destruct (L2 j) as [(r & Hr)|Hg]; [apply lookup_lt_is_Some; eauto| |right; eauto].
          destruct r as [e|]; [left; eauto|]. apply succeeded_spec in Hr. congruence. }
        assert (Hpath : forall j, addressed tasks (k_terminal k) [WKey (default [] (a_tui a) ++ [j])] ((t_name t, i, j) :: around s)).
        { intros j. replace (default [] (a_tui a) ++ [j]) with (rev ((t_name t, i, j) :: around s).*2); [apply ad_key; [discriminate|exact Hterm]|].
          cbn. f_equal. rewrite Hbase in A1. destruct (a_tui a) as [path|]; cbn; inversion A1; subst; reflexivity. }
        destruct (a_tui a) as [path|] eqn:Et.
        + apply (tl_items_of _ _ _ _ _ _ _ _ _ _ s); [exact C1|eauto| |apply Hfin]. intros j _. split; [|cbn; rewrite Hs; reflexivity]. split; [apply Hpath|].
          split; [cbn; intros p' [= <-]; reflexivity|cbn; rewrite Hs; exact Esil].
        + apply tl_quiet; [exact I|]. intros F2 c H2. apply tl_quiet; [exact I|]. intros F3 [] H3; [|apply R].
          apply (tl_items_of _ _ _ _ _ _ _ _ _ _ s); [auto|eauto| |].
          * intros j _. split; [|cbn; rewrite Hs; reflexivity]. split; [apply Hpath|]. split; [cbn; intros p' [= <-]; reflexivity|cbn; rewrite Hs; exact Esil].
          * intros F4 log H4. apply Hfin. eapply grows_trans; [exact H2|]. eapply grows_trans; eassumption.
      - unfold execute_interleaved. apply (tl_items_of _ _ _ _ _ _ _ _ _ _ s); [exact C1|eauto| |intros; apply R].
        intros j Hj. split; [|cbn; rewrite Hs; reflexivity]. split; [cbn; eapply ad_label; eassumption|]. split; [discriminate|cbn; rewrite Hs; exact Esil].
    Qed.

    Lemma tl_item (F : facts) it t i l env a s : tasks !! t_name t = Some t -> t_run t !! i = Some it -> F (OClaim (t_name t) s Fresh) -> placed a (around s) -> a_scope a = s ->
      tells F (execute_item k tasks rt it t i l env a).
    Proof.
      intros Ht Hi HF Ha Hs. destruct it as [c|r|lg|q|o items]; cbn [execute_item].
      1-3: eapply tl_run_item; [exact HF|left; eauto|exact Ha|rewrite Hs; reflexivity].
      - apply tl_quiet; [exact I|]. intros F1 vars H1. destruct (interpolate_prompt _ _ _); [|constructor]. destruct (k_dry k); [apply tl_quiet; [exact I|]; intros; constructor|].
        apply tl_quiet; [exact I|]. intros F2 [v|] H2; [|constructor]. apply tl_quiet; [exact I|]. intros; constructor.
      - destruct (k_dry k); [apply tl_quiet; [exact I|]; intros; constructor|]. apply tl_quiet; [exact I|]. intros F1 vars H1. apply tl_quiet; [exact I|]. intros F2 l' H2.
        eapply tl_parallel; eauto.
    Qed.

    Lemma tl_items (F : facts) items t i ex sk l env a s : tasks !! t_name t = Some t -> (forall n it, items !! n = Some it -> t_run t !! (i + n) = Some it) ->
      F (OClaim (t_name t) s Fresh) -> placed a (around s) -> a_scope a = s -> tells F (execute_items k tasks rt items t i ex sk l env a).
    Proof.
      intros Ht Hi HF Ha Hs. revert F i ex sk Hi HF. induction items as [|it items IH]; intros F i ex sk Hi HF; cbn [execute_items].
      - destruct ex, sk; constructor.
      - assert (IH' : forall (F' : facts) ex sk, grows F F' -> tells F' (execute_items k tasks rt items t (S i) ex sk l env a)).
        { intros F' ex' sk' HF'. apply IH; [|auto]. intros n it' Hn. replace (S i + n) with (i + S n) by lia. apply Hi. exact Hn. }
        apply tl_quiet; [exact I|]. intros F1 [] H1; [constructor|]. destruct (negb _); [apply tl_quiet; [exact I|]; intros; apply IH'; eapply grows_trans; eassumption|].
        assert (G : forall F2 : facts, grows F F2 -> tells F2 (bind (execute_item k tasks rt it t i l env a) (fun r => Vis (ERet (t_name t) [i] r) (fun _ => match r with Some e => Ret (Some e) | None => execute_items k tasks rt items t (S i) (S ex) sk l env a end)))).
        { intros F2 H2. apply tells_bind; [eapply tl_item; [exact Ht|rewrite <- (Nat.add_0_r i); apply Hi; reflexivity|apply H2; exact HF|exact Ha|exact Hs]|].
          intros F3 r H3. apply tl_quiet; [exact I|]. intros F4 _ H4. destruct r; [constructor|]. apply IH'. intros x Hx. auto. }
        destruct (item_when it); [apply G; exact H1|]. apply tl_quiet; [exact I|]. intros F2 vars H2.
        assert (H12 : grows F F2) by (eapply grows_trans; eassumption).
        destruct (evaluate _ _ _) as [[]|]; [apply G; exact H12| |constructor]. apply tl_quiet; [exact I|]. intros F3 _ H3. apply IH'. eapply grows_trans; eassumption.
    Qed.

    Lemma tl_task (F : facts) t a s : tasks !! t_name t = Some t -> F (OClaim (t_name t) s Fresh) -> placed a (around s) -> a_scope a = s -> tells F (execute_task k tasks rt t a).
    Proof.
      intros Ht HF Ha Hs. unfold execute_task.
      assert (G : forall (F' : facts) l env, grows F F' -> tells F' (execute_items k tasks rt (t_run t) t 0 0 0 l env a)).
      { intros F' l env HF'. eapply tl_items; [exact Ht|auto|apply HF'; exact HF|exact Ha|exact Hs]. }
      destruct (t_vars t) as [vs|].
      - apply tl_quiet; [exact I|]. intros F1 order H1. apply tl_quiet; [exact I|]. intros F2 globals H2. destruct (resolve_vars _ _ _ _) as [m|]; [|constructor].
        apply tl_quiet; [exact I|]. intros F3 l H3. apply tl_env. intros F4 env H4. apply G. intros x Hx. auto.
      - apply tl_quiet; [exact I|]. intros F1 vars H1. apply tl_env. intros F2 env H2. apply G. intros x Hx. auto.
    Qed.

    Lemma tl_deps (F : facts) n deps a kk : placed a (around (a_scope a)) -> (forall F' : facts, grows F F' -> tells F' kk) -> tells F (run_deps rt n deps a kk).
    Proof.
      intros Ha. revert F. induction deps as [|d deps IH]; intros F Hk; cbn; [apply Hk; intros x Hx; exact Hx|]. apply tells_then; [apply Hrt; split; [apply Ha|split; [apply Ha|reflexivity]]|].
      intros F1 H1. apply IH. intros F2 H2. apply Hk. eapply grows_trans; eassumption.
    Qed.
  End Calls.

  Lemma tl_run_task fuel : forall n a F, placed a (around (a_scope a)) -> tells F (run_task k tasks fuel n a).
  Proof.
    induction fuel as [|fuel IH]; intros n a F Ha; cbn [run_task]; [constructor|]. constructor; [exact I|].
    intros []; [| |constructor]; [|apply tl_quiet; [exact I|]; intros; constructor]. destruct (tasks !! n) as [t|] eqn:Et; [|constructor].
    pose proof (Hkeyed _ _ Et) as <-.
    set (F1 := add F _). assert (C1 : F1 (OClaim (t_name t) (a_scope a) Fresh)) by (right; reflexivity).
    match goal with |- tells F1 (match t_when t with [] => ?b | _ => _ end) => assert (B : forall F2 : facts, grows F1 F2 -> tells F2 b) end.
    { intros F2 H2.
      assert (R : forall F3 : facts, grows F1 F3 -> tells F3 (run_deps (run_task k tasks fuel) (t_name t) (t_deps t) a
        (match t_run t with [] => Vis (EDone (t_name t)) (fun _ => Ret None) | _ => and_then (execute_task k tasks (run_task k tasks fuel) t a) id (Vis (EDone (t_name t)) (fun _ => Ret None)) end))).
      { intros F3 H3. apply tl_deps; [exact IH|exact Ha|]. intros F4 H4.
        assert (E : forall F5 : facts, tells F5 (Vis (EDone (t_name t)) (fun _ => Ret None))) by (intros; apply tl_quiet; [exact I|]; intros; constructor).
        destruct (t_run t); [apply E|]. apply tells_then; [|intros; apply E]. eapply tl_task; [exact IH|exact Et|apply H4, H3; exact C1|exact Ha|reflexivity]. }
      destruct (_ && _); [|apply R; exact H2]. constructor; [|intros r; apply R; eapply grows_trans; [exact H2|apply grows_add]].
      exists (a_scope a). split; [apply H2; exact C1|apply Ha]. }
    destruct (t_when t); [apply B; intros x Hx; exact Hx|]. apply tl_quiet; [exact I|]. intros F2 globals H2. destruct (evaluate _ _ _) as [[]|]; [apply B; exact H2| |constructor].
    apply tl_quiet; [exact I|]. intros F3 _ _. apply tl_quiet; [exact I|]. intros; constructor.
  Qed.

  Theorem run_said root h p : rtc (cstep (k_vars k)) ([], run_with_tasks k tasks root) (h, p) -> forall e r, obs e r ∈ h -> said (fun ev => ev ∈ h) e.
  Proof.
    intros Hr. eapply (tells_run said said_mono); [|exact Hr]. apply tl_run_task. split; [apply ad_none|split; [discriminate|reflexivity]].
  Qed.
End Runner.
