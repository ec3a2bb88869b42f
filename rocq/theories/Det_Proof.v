(** Two runs of the same task that are given the same answers do the same. *)
From Verif Require Import Base Interp_Model Interp_Spec Interp_Proof Vars_Proof Cond_Model Types_Model Path_Model Include_Proof Run_Model Run_Logic Det_Spec.

Section Det.
  Context (k : config) (tasks : taskmap).
  Notation same_event := (same_event k tasks).
  Notation same_proc := (same_proc k tasks).
  Notation declared := (declared k tasks).

  (** What may be written to the maps of variables, and what may be read and answered. *)
  Definition eff_ok (e : eff) : Prop :=
    match e with EAlloc _ _ m => all_nul_free m | EWrite _ _ _ _ v => nul_free v | _ => True end.
  Definition resp_ok (e : eff) : resp e -> Prop :=
    match e with
    | ERead _ _ _ => fun m => all_nul_free m
    | EPrompt _ _ _ => fun a => match a with Some v => nul_free v | None => True end
    | _ => fun _ => True
    end.

  Inductive agree : prog -> prog -> Prop :=
  | ag_ret r r' : same_outcome r r' -> agree (Ret r) (Ret r')
  | ag_order m f f' : (forall o o', iteration_order m o -> iteration_order m o' -> agree (f o) (f' o')) -> agree (Vis (EOrder m) f) (Vis (EOrder m) f')
  | ag_start x x' f f' : same_proc x x' -> (forall b, agree (f b) (f' b)) -> agree (Vis (EStart x) f) (Vis (EStart x') f')
  | ag_eret t p r r' f f' : same_outcome r r' -> agree (f tt) (f' tt) -> agree (Vis (ERet t p r) f) (Vis (ERet t p r') f')
  | ag_vis e f f' : eff_ok e -> (forall m, e <> EOrder m) -> (forall r, resp_ok e r -> agree (f r) (f' r)) -> agree (Vis e f) (Vis e f').

  Lemma ag_bind p p' f f' : agree p p' -> (forall r r', same_outcome r r' -> agree (f r) (f' r')) -> agree (bind p f) (bind p' f').
  Proof.
    intros H Hf. induction H; cbn.
    - apply Hf. assumption.
    - apply ag_order. auto.
    - apply ag_start; auto.
    - apply ag_eret; auto.
    - apply ag_vis; auto.
  Qed.
  Lemma same_refl r : same_outcome r r.
  Proof. destruct r; constructor. constructor. Qed.
  Lemma ag_refl r : agree (Ret r) (Ret r).
  Proof. constructor. apply same_refl. Qed.

  (** ** Environments *)
  Section Env.
    Context (getenv : str -> str) (vars env : gmap str str).
    Lemma env_ok order m : interpolate_env getenv vars env order = Ok m -> NoDup order ->
      forall n, m !! n = (if decide (n ∈ order) then match interpolate getenv vars (default [] (env !! n)) with Ok v => Some v | Err _ => None end else None) /\
        (n ∈ order -> exists v, interpolate getenv vars (default [] (env !! n)) = Ok v).
    Proof.
      revert m. induction order as [|key order IH]; cbn; intros m H Hn n.
      - injection H as <-. rewrite decide_False by apply not_elem_of_nil. split; [apply lookup_empty|]. intros X. inversion X.
      - destruct (interpolate getenv vars (default [] (env !! key))) as [v|e] eqn:Ev; [|discriminate]. destruct (interpolate_env getenv vars env order) as [m'|e] eqn:Em; [|discriminate]. injection H as <-.
        apply NoDup_cons in Hn as [Hn1 Hn2]. destruct (IH m' eq_refl Hn2 n) as [A B]. destruct (decide (n = key)) as [->|Hne].
        + rewrite lookup_insert, decide_True by left. rewrite Ev. split; [reflexivity|eauto].
        + rewrite lookup_insert_ne by congruence. rewrite A. split.
          * destruct (decide (n ∈ order)); [rewrite decide_True by (right; assumption)|rewrite decide_False by (intros X; apply elem_of_cons in X as [?|?]; contradiction)]; reflexivity.
          * intros X. apply elem_of_cons in X as [?|?]; [contradiction|auto].
    Qed.
    Lemma env_total order : (forall n, n ∈ order -> exists v, interpolate getenv vars (default [] (env !! n)) = Ok v) -> exists m, interpolate_env getenv vars env order = Ok m.
    Proof.
      induction order as [|key order IH]; cbn; intros H; [eauto|]. destruct (H key ltac:(left)) as [v ->]. destruct IH as [m ->]; [intros n Hn; apply H; right; exact Hn|]. eauto.
    Qed.
    Lemma order_nodup (o : list str) : iteration_order env o -> NoDup o.
    Proof. intros ->. apply NoDup_fst_map_to_list. Qed.
    Lemma env_order o o' m : iteration_order env o -> iteration_order env o' -> interpolate_env getenv vars env o = Ok m -> interpolate_env getenv vars env o' = Ok m.
    Proof.
      intros H H' E. pose proof (env_ok o m E (order_nodup _ H)) as A.
      assert (forall n, n ∈ o <-> n ∈ o') as Hin by (intros n; rewrite (iteration_order_elem _ _ H), (iteration_order_elem _ _ H'); reflexivity).
      destruct (env_total o') as [m' E']; [intros n Hn; apply A, Hin, Hn|]. rewrite E'. f_equal. pose proof (env_ok o' m' E' (order_nodup _ H')) as A'.
      apply map_eq. intros n. rewrite (proj1 (A n)), (proj1 (A' n)). destruct (decide (n ∈ o)) as [X|X]; [rewrite decide_True by (apply Hin; exact X)|rewrite decide_False by (rewrite <- Hin; exact X)]; reflexivity.
    Qed.
    Lemma env_keys o m n : iteration_order env o -> interpolate_env getenv vars env o = Ok m -> is_Some (m !! n) -> is_Some (env !! n).
    Proof.
      intros H E [v Hv]. rewrite (proj1 (env_ok o m E (order_nodup _ H) n)) in Hv. destruct (decide (n ∈ o)) as [X|X]; [|discriminate]. apply (iteration_order_elem _ _ H). exact X.
    Qed.
  End Env.

  Lemma ag_env ln vars env f f' : (forall m, (forall n, is_Some (m !! n) -> is_Some (env !! n)) -> agree (f m) (f' m)) -> agree (interpolate_env_then k ln vars env f) (interpolate_env_then k ln vars env f').
  Proof.
    intros H. unfold interpolate_env_then. case_decide; [apply H; auto|]. apply ag_order. intros o o' Ho Ho'.
    destruct (interpolate_env (k_getenv k) vars env o) as [m|e] eqn:E.
    - rewrite (env_order _ _ _ _ _ _ Ho Ho' E). apply H. intros n Hn. exact (env_keys _ _ _ _ _ _ Ho E Hn).
    - destruct (interpolate_env (k_getenv k) vars env o') as [m|e'] eqn:E'; [rewrite (env_order _ _ _ _ _ _ Ho' Ho E') in E; discriminate E|]. constructor. constructor. constructor.
  Qed.
  Lemma ag_dir t pa ln d vars f f' : (forall d, agree (f d) (f' d)) -> agree (resolve_dir_then k t pa ln d vars f) (resolve_dir_then k t pa ln d vars f').
  Proof.
    intros H. unfold resolve_dir_then. destruct (match _ with [] => k_dir k | _ => _ end); [apply H|]. destruct (interpolate _ _ _); [|apply ag_refl].
    apply ag_vis; [exact I|discriminate|]. intros r _. cbn in r. destruct r; try apply ag_refl. apply H.
  Qed.

  Ltac vis := apply ag_vis; [try exact I|discriminate|].

  Lemma ag_command c t pa l env a : (forall n, is_Some (smap_get (c_env c) !! n) \/ is_Some (env !! n) -> declared n) -> agree (execute_command k c t pa l env a) (execute_command k c t pa l env a).
  Proof.
    intros Hd. unfold execute_command. destruct (trim_space (c_cmd c)); [apply ag_refl|]. vis. intros vars _. destruct (interpolate _ _ _) as [cmd|e]; [|apply ag_refl].
    apply ag_env. intros m Hm. apply ag_dir. intros d. destruct (k_dry k); [vis; intros; apply ag_refl|].
    assert (agree (Vis (EOrder m) (fun order => Vis (EStart (Proc (t_name t) pa (a_scope a) cmd (command_environ (k_environ k) (a_piped a && is_output [c_output c; a_output a; t_output t; k_output k]) (a_nocolor a) m order) d
        (is_output [c_output c; a_output a; t_output t; k_output k]) (negb (a_piped a) && is_output [c_output c; a_output a; t_output t; k_output k]) (a_ctx a) (a_out a)))
        (fun started : bool => if started then Vis (EEnd (t_name t) pa) (fun ok : bool => if ok then Ret None else Ret (Some (RCmdFailed (t_name t) cmd))) else Ret (Some (RCmdFailed (t_name t) cmd)))))
      (Vis (EOrder m) (fun order => Vis (EStart (Proc (t_name t) pa (a_scope a) cmd (command_environ (k_environ k) (a_piped a && is_output [c_output c; a_output a; t_output t; k_output k]) (a_nocolor a) m order) d
        (is_output [c_output c; a_output a; t_output t; k_output k]) (negb (a_piped a) && is_output [c_output c; a_output a; t_output t; k_output k]) (a_ctx a) (a_out a)))
        (fun started : bool => if started then Vis (EEnd (t_name t) pa) (fun ok : bool => if ok then Ret None else Ret (Some (RCmdFailed (t_name t) cmd))) else Ret (Some (RCmdFailed (t_name t) cmd)))))) as H.
    { apply ag_order. intros o o' Ho Ho'. apply ag_start.
      - constructor; try reflexivity. unfold command_environ. cbn [x_environ]. rewrite !app_assoc. eexists _, m, o, o'. split; [reflexivity|]. split; [reflexivity|]. split; [exact Ho|]. split; [exact Ho'|].
        intros n Hn. apply Hd. apply Hm in Hn. rewrite merge_maps_get in Hn. destruct (smap_get (c_env c) !! n); [left; eauto|right; exact Hn].
      - intros [|]; [|apply ag_refl]. vis. intros b _. cbn in b. destruct b; apply ag_refl. }
    destruct (is_silent _); [exact H|]. vis. intros _ _. exact H.
  Qed.

  Context (Hno : no_blocks k tasks) (Htexts : texts_ok k tasks).

  Section Calls.
    Context (rt : str -> args -> prog) (Hrt : forall n a, agree (rt n a) (rt n a)).

    Lemma ag_run_item it t pa l env a : (forall n, is_Some (env !! n) -> declared n) -> (forall c, it = RCmd c -> forall n, is_Some (smap_get (c_env c) !! n) -> declared n) ->
      agree (execute_run_item k rt it t pa l env a) (execute_run_item k rt it t pa l env a).
    Proof.
      intros He Hc. destruct it as [c|r|lg|p|o items]; cbn [execute_run_item]; try apply ag_refl.
      - apply ag_command. intros n [H|H]; [eapply Hc; [reflexivity|exact H]|apply He; exact H].
      - destruct (k_dry k); [vis; intros; apply ag_refl|apply Hrt].
      - vis. intros vars _. destruct (interpolate _ _ _); [|apply ag_refl]. destruct (k_dry k); vis; intros; apply ag_refl.
    Qed.

    Lemma ag_item it t i l env a : (forall n, is_Some (env !! n) -> declared n) -> (forall c, it = RCmd c -> forall n, is_Some (smap_get (c_env c) !! n) -> declared n) ->
      (k_dry k = true \/ forall o items, it <> RPar o items) -> agree (execute_item k tasks rt it t i l env a) (execute_item k tasks rt it t i l env a).
    Proof.
      intros He Hc Hp. destruct it as [c|r|lg|p|o items]; try (apply ag_run_item; assumption).
      - cbn [execute_item]. vis. intros vars _. destruct (interpolate_prompt _ _ _) as [q|e]; [|apply ag_refl]. destruct (k_dry k); [vis; intros; apply ag_refl|].
        vis. intros [v|] Hv; [|apply ag_refl]. vis; [exact Hv|]. intros; apply ag_refl.
      - cbn [execute_item]. destruct Hp as [->|Hp]; [vis; intros; apply ag_refl|]. exfalso. eapply Hp. reflexivity.
    Qed.

    Lemma ag_items items t i ex sk l env a : (forall n, is_Some (env !! n) -> declared n) -> (forall c, RCmd c ∈ items -> forall n, is_Some (smap_get (c_env c) !! n) -> declared n) ->
      (k_dry k = true \/ forall o its, RPar o its ∉ items) -> agree (execute_items k tasks rt items t i ex sk l env a) (execute_items k tasks rt items t i ex sk l env a).
    Proof.
      intros He. revert i ex sk. induction items as [|it rest IH]; intros i ex sk Hc Hp; cbn [execute_items]; [destruct ex, sk; apply ag_refl|].
      assert (forall i ex sk, agree (execute_items k tasks rt rest t i ex sk l env a) (execute_items k tasks rt rest t i ex sk l env a)) as Hr.
      { intros i' ex' sk'. apply IH; [intros c Hin; apply Hc; right; exact Hin|]. destruct Hp as [Hp|Hp]; [left; exact Hp|right; intros o its Hin; apply (Hp o its); right; exact Hin]. }
      vis. intros done _. destruct (done : bool); [apply ag_refl|]. destruct (negb _); [vis; intros; apply Hr|].
      assert (agree (bind (execute_item k tasks rt it t i l env a) (fun r => Vis (ERet (t_name t) [i] r) (fun _ => match r with Some e => Ret (Some e) | None => execute_items k tasks rt rest t (S i) (S ex) sk l env a end)))
                    (bind (execute_item k tasks rt it t i l env a) (fun r => Vis (ERet (t_name t) [i] r) (fun _ => match r with Some e => Ret (Some e) | None => execute_items k tasks rt rest t (S i) (S ex) sk l env a end)))) as Hgo.
      { apply ag_bind.
        - apply ag_item; [exact He|intros c ->; apply Hc; left|]. destruct Hp as [Hp|Hp]; [left; exact Hp|right; intros o its ->; apply (Hp o its); left].
        - intros r r' Hs. apply ag_eret; [exact Hs|]. destruct Hs as [|e e' Hs]; [apply Hr|]. constructor. constructor. exact Hs. }
      destruct (item_when it) as [|b w]; [exact Hgo|]. vis. intros vars _. destruct (evaluate _ _ _) as [[|]|e]; [exact Hgo| |apply ag_refl]. vis. intros; apply Hr.
    Qed.

    Lemma resolved_ok vs globals o m : all_nul_free vs -> all_nul_free globals -> iteration_order vs o -> resolve_vars (k_getenv k) (Some vs) (Some globals) o = Ok m -> all_nul_free m.
    Proof.
      intros Hv Hg Ho E. destruct Htexts as (Hge & _ & _). apply (resolve_vars_iff _ _ (Some globals) _ _ Hge Hv Hg Ho) in E as (_ & _ & Hm). intros n v Hn. apply Hm in Hn. eapply Val_nul_free; [| | |exact Hn]; assumption.
    Qed.

    Lemma ag_task T t a : tasks !! T = Some t -> agree (execute_task k tasks rt t a) (execute_task k tasks rt t a).
    Proof.
      intros Ht. pose proof Htexts as (Hge & _ & Hvs).
      assert (forall l vars, agree (interpolate_env_then k (t_line t) vars (smap_get (merge_maps (k_env k) (t_env t))) (fun env => execute_items k tasks rt (t_run t) t 0 0 0 l env a))
        (interpolate_env_then k (t_line t) vars (smap_get (merge_maps (k_env k) (t_env t))) (fun env => execute_items k tasks rt (t_run t) t 0 0 0 l env a))) as Hw.
      { intros l vars. apply ag_env. intros m Hm. apply ag_items.
        - intros n Hn. apply Hm in Hn. rewrite merge_maps_get in Hn. destruct (smap_get (t_env t) !! n) eqn:E; [right; exists T, t; split; [exact Ht|left; rewrite E; eauto]|left; exact Hn].
        - intros c Hc n Hn. right. exists T, t. split; [exact Ht|right; eauto].
        - destruct Hno as [H|H]; [left; exact H|right; intros o its; eapply H; exact Ht]. }
      unfold execute_task. destruct (t_vars t) as [vs|] eqn:Ev.
      - apply ag_order. intros o o' Ho Ho'. vis. intros globals Hg. cbn in Hg. pose proof (Hvs T t vs Ht Ev) as Hvs'.
        destruct (resolve_vars (k_getenv k) (Some vs) (Some globals) o) as [m|e] eqn:E.
        + rewrite (resolve_vars_order _ _ (Some globals) o o' Hge Hvs' Hg Ho Ho' m E). vis; [exact (resolved_ok vs globals o m Hvs' Hg Ho E)|]. intros l _. apply Hw.
        + destruct (resolve_vars (k_getenv k) (Some vs) (Some globals) o') as [m|e'] eqn:E'; [rewrite (resolve_vars_order _ _ (Some globals) o' o Hge Hvs' Hg Ho' Ho m E') in E; discriminate E|]. constructor. constructor. constructor.
      - vis. intros vars _. apply Hw.
    Qed.

    Lemma ag_deps n deps a kk : agree kk kk -> agree (run_deps rt n deps a kk) (run_deps rt n deps a kk).
    Proof.
      intros Hk. induction deps as [|d r IH]; cbn [run_deps]; [exact Hk|]. unfold and_then. apply ag_bind; [apply Hrt|].
      intros o o' Hs. destruct Hs as [|e e' Hs]; [exact IH|]. constructor. constructor. constructor. exact Hs.
    Qed.
  End Calls.

  Lemma ag_run fuel n a : agree (run_task k tasks fuel n a) (run_task k tasks fuel n a).
  Proof.
    revert n a. induction fuel as [|fuel IH]; intros n a; cbn [run_task]; [apply ag_refl|]. vis. intros s _. cbn in s. destruct s.
    2: vis; intros; apply ag_refl.
    2: apply ag_refl.
    destruct (tasks !! n) as [t|] eqn:Ht; [|apply ag_refl].
    match goal with |- agree (match t_when t with [] => ?b | _ => _ end) _ => assert (agree b b) as Hb end.
    { match goal with |- agree (if _ then Vis _ (fun _ => ?b) else _) _ => assert (agree b b) as Hr end.
      { apply ag_deps; [exact IH|]. assert (agree (Vis (EDone n) (fun _ => Ret None)) (Vis (EDone n) (fun _ => Ret None))) as Hf by (vis; intros; apply ag_refl).
        destruct (t_run t); [exact Hf|]. unfold and_then. apply ag_bind; [eapply ag_task; [exact IH|exact Ht]|]. intros o o' Hs. destruct Hs as [|e e' Hs]; [exact Hf|]. constructor. constructor. exact Hs. }
      destruct (negb _ && negb _); [vis; intros; exact Hr|exact Hr]. }
    destruct (t_when t); [exact Hb|]. vis. intros globals _. destruct (evaluate _ _ _) as [[|]|e]; [exact Hb| |apply ag_refl]. vis. intros. vis. intros. apply ag_refl.
  Qed.

  (** ** Executions *)
  Notation g := (k_vars k).
  Notation hsame := (Forall2 same_event).
  Lemma same_state h h' : hsame h h' -> (forall n, status_of h n = status_of h' n) /\ allocs h = allocs h' /\ (forall l, heap_of g h l = heap_of g h' l) /\ contexts h = contexts h' /\ answered h = answered h'.
  Proof.
    intros H. unfold answered. induction H as [|a b h h' Hab _ (H1 & H2 & H3 & H4 & H5)]; [repeat split|].
    apply (f_equal (@rev answer)) in H5. rewrite !rev_involutive in H5.
    destruct Hab as [ev|m o o'|x x' b Hx|t p r r' Hr]; cbn; try (repeat split; congruence).
    - split; [intros n; destruct ev; try apply H1; [destruct s; try apply H1|]; rewrite H1; reflexivity|]. split; [destruct ev; congruence|].
      split; [intros l; destruct ev; try apply H3; rewrite H3; reflexivity|]. split; [destruct ev; congruence|]. destruct (answer_of ev); cbn; rewrite H5; reflexivity.
  Qed.
  Lemma not_cancelled h c : uncancelled h -> cancelledb h c = false.
  Proof.
    intros H. induction h as [|ev h IH]; [reflexivity|]. assert (uncancelled h) as Hu by (intros i Hi; apply (H i); right; exact Hi).
    destruct ev; try (apply IH; exact Hu). exfalso. apply (H i). left.
  Qed.
  Lemma next_answer {A} (l : list A) a a' L L' : (l ++ [a]) `prefix_of` L -> (l ++ [a']) `prefix_of` L' -> L `prefix_of` L' \/ L' `prefix_of` L -> a = a'.
  Proof.
    intros [r ->] [r' ->] [[q E]|[q E]]; rewrite <- !app_assoc in E; apply app_inv_head in E; cbn in E; congruence.
  Qed.

  Definition heap_ok (h : hist) : Prop := forall l, all_nul_free (heap_of g h l).
  Record paired (s s' : hist * prog) : Prop := {
    pr_hist : hsame s.1 s'.1; pr_prog : agree s.2 s'.2; pr_heap : heap_ok s.1 }.

  Lemma answered_grows s s' : rtc (cstep g) s s' -> answered s.1 `prefix_of` answered s'.1 /\ s.1 `suffix_of` s'.1.
  Proof.
    induction 1 as [s|s1 s2 s3 H _ (IH1 & IH2)]; [split; reflexivity|]. destruct H as [h p ev p' _ _|h p i]; cbn in *.
    - split; [etransitivity; [|exact IH1]|etransitivity; [apply suffix_cons_r; reflexivity|exact IH2]]. unfold answered. cbn. destruct (answer_of ev); cbn; [apply prefix_app_r; reflexivity|reflexivity].
    - split; [exact IH1|etransitivity; [apply suffix_cons_r; reflexivity|exact IH2]].
  Qed.

  Lemma same_response e r r' h h' : hsame h h' -> uncancelled h -> uncancelled h' -> (forall m, e <> EOrder m) -> allowed g h (obs e r) -> allowed g h' (obs e r') ->
    (forall a a', answer_of (obs e r) = Some a -> answer_of (obs e r') = Some a' -> a = a') -> r = r'.
  Proof.
    intros Hs Hu Hu' Hno' Ha Ha' Hans. destruct (same_state _ _ Hs) as (H1 & H2 & H3 & H4 & _).
    destruct e; cbn in *; try (destruct r, r'; reflexivity); try congruence.
    - apply map_eq. intros n. rewrite Ha, Ha', H1. reflexivity.
    - rewrite not_cancelled in Ha, Ha' by assumption. congruence.
    - exfalso. eapply Hno'. reflexivity.
    - specialize (Hans _ _ eq_refl eq_refl). congruence.
    - specialize (Hans _ _ eq_refl eq_refl). congruence.
    - specialize (Hans _ _ eq_refl eq_refl). congruence.
    - specialize (Hans _ _ eq_refl eq_refl). congruence.
    - specialize (Hans _ _ eq_refl eq_refl). congruence.
  Qed.

  Lemma heap_step h e r : heap_ok h -> eff_ok e -> heap_ok (obs e r :: h).
  Proof.
    intros Hh He l. destruct e; cbn in *; try apply Hh.
    - case_decide; [exact He|apply Hh].
    - case_decide; [|apply Hh]. intros n w. destruct (decide (n = k0)) as [->|Hne]; [rewrite lookup_insert; congruence|rewrite lookup_insert_ne by congruence; apply Hh].
  Qed.

  Lemma paired_step h p h' p' s1 s1' y y' : paired (h, p) (h', p') -> cstep g (h, p) s1 -> cstep g (h', p') s1' ->
    uncancelled s1.1 -> uncancelled s1'.1 -> answered s1.1 `prefix_of` answered y -> answered s1'.1 `prefix_of` answered y' -> same_answers y y' -> answers_ok y ->
    paired s1 s1'.
  Proof.
    intros [Hh Ha Hheap] S S' U U' P P' Hans Hok. cbn in *.
    inversion S as [h0 p0 ev q Hs Hal|h0 p0 i]; subst; cbn in *; [|exfalso; apply (U i); left].
    inversion S' as [h0 p0 ev' q' Hs' Hal'|h0 p0 i]; subst; cbn in *; [|exfalso; apply (U' i); left].
    assert (uncancelled h) as Uh by (intros i Hi; apply (U i); right; exact Hi). assert (uncancelled h') as Uh' by (intros i Hi; apply (U' i); right; exact Hi).
    pose proof (same_state _ _ Hh) as (_ & _ & _ & _ & Hanswered).
    assert (forall a a', answer_of ev = Some a -> answer_of ev' = Some a' -> a = a') as Hnext.
    { intros a a' E E'. unfold answered in P, P', Hanswered. cbn in P, P'. rewrite E in P. rewrite E' in P'. cbn in P, P'. rewrite <- Hanswered in P'. exact (next_answer _ _ _ _ _ P P' Hans). }
    destruct Ha as [r r' Hr|m f f' Hf|x x' f f' Hx Hf|t pa r r' f f' Hr Hf|e f f' He Hne Hf].
    - inversion Hs.
    - apply pstep_vis in Hs as (o & -> & ->). apply pstep_vis in Hs' as (o' & -> & ->). constructor; cbn; [constructor; [constructor|exact Hh]| |intros l; apply Hheap]. apply Hf; assumption.
    - apply pstep_vis in Hs as (b & -> & ->). apply pstep_vis in Hs' as (b' & -> & ->). cbn in b, b'. assert (b = b') as <- by (specialize (Hnext _ _ eq_refl eq_refl); congruence).
      constructor; cbn; [constructor; [constructor; exact Hx|exact Hh]|apply Hf|intros l; apply Hheap].
    - apply pstep_vis in Hs as (b & -> & ->). apply pstep_vis in Hs' as (b' & -> & ->). cbn in b, b'. destruct b, b'. constructor; cbn; [constructor; [constructor; exact Hr|exact Hh]|exact Hf|intros l; apply Hheap].
    - apply pstep_vis in Hs as (r & -> & ->). apply pstep_vis in Hs' as (r' & -> & ->).
      assert (r = r') as <- by (eapply same_response; eassumption).
      constructor; cbn; [constructor; [constructor|exact Hh]| |apply heap_step; assumption]. apply Hf.
      destruct e; try exact I; cbn in *; [rewrite Hal; apply Hheap|]. destruct r as [v|]; [|exact I]. apply Hok. destruct P as [rest E]. rewrite E. apply elem_of_app. left.
      unfold answered. cbn. apply elem_of_app. right. left.
  Qed.

  Lemma lockstep x y x' y' : rtc (cstep g) x y -> rtc (cstep g) x' y' -> paired x x' -> uncancelled y.1 -> uncancelled y'.1 -> same_answers y.1 y'.1 -> answers_ok y.1 ->
    (exists z', rtc (cstep g) x' z' /\ rtc (cstep g) z' y' /\ paired y z') \/ (exists z, rtc (cstep g) x z /\ rtc (cstep g) z y /\ paired z y').
  Proof.
    intros H. revert x' . induction H as [y|x s y Hxs Hsy IH]; intros x' H' Hp U U' Ha Hok.
    - left. exists x'. split; [reflexivity|]. split; [exact H'|exact Hp].
    - destruct H' as [y'|x' s' y' Hxs' Hsy'].
      + right. exists x. split; [reflexivity|]. split; [eapply rtc_l; eassumption|exact Hp].
      + destruct x as [h p], x' as [h' p'].
        destruct (answered_grows _ _ Hsy) as [P1 P2]. destruct (answered_grows _ _ Hsy') as [P1' P2'].
        assert (uncancelled s.1) as Us by (intros i Hi; apply (U i); eapply elem_of_suffix; eassumption).
        assert (uncancelled s'.1) as Us' by (intros i Hi; apply (U' i); eapply elem_of_suffix; eassumption).
        pose proof (paired_step _ _ _ _ _ _ _ _ Hp Hxs Hxs' Us Us' P1 P1' Ha Hok) as Hp'.
        destruct (IH s' Hsy' Hp' U U' Ha Hok) as [(z' & A & B & C)|(z & A & B & C)].
        * left. exists z'. split; [eapply rtc_l; eassumption|]. split; assumption.
        * right. exists z. split; [eapply rtc_l; eassumption|]. split; assumption.
  Qed.

  Lemma over_stuck h r s : rtc (cstep g) (h, Ret r) s -> uncancelled s.1 -> s = (h, Ret r).
  Proof.
    intros H U. inversion H as [|a b c Hab Hbc]; subst; [reflexivity|]. exfalso. inversion Hab as [h0 p0 ev q Hs|h0 p0 i]; subst; [inversion Hs|].
    apply (U i). destruct (answered_grows _ _ Hbc) as [_ [l E]]. cbn in E. rewrite E. apply elem_of_app. right. left.
  Qed.
End Det.
