(** A goroutine runs one command at a time. *)
From Verif Require Import Base Interp_Model Cond_Model Types_Model Path_Model Run_Model Run_Spec Dest_Spec Run_Logic Sim_Proof Alone_Spec.

Notation facts := (event -> Prop).
Definition grows (F F' : facts) : Prop := forall x, F x -> F' x.
Lemma grows_refl F : grows F F. Proof. intros x H. exact H. Qed.
Lemma grows_trans F1 F2 F3 : grows F1 F2 -> grows F2 F3 -> grows F1 F3. Proof. intros H1 H2 x H. auto. Qed.

(** A goroutine at [w], which knows [F], may do [e]; commands are told apart below. *)
Definition located (F : facts) (w : spot) (e : eff) : Prop :=
  match e with
  | EStart _ | EEnd _ _ => False
  | EHeader T _ _ | ESummary T _ _ _ => exists s, F (OClaim T s Fresh) /\ w = around s
  | EEcho T pa _ _ | ELog T pa _ _ _ | EPrompt T pa _ => exists s, F (OClaim T s Fresh) /\ w = item_around T pa s
  | _ => True
  end.
Lemma located_mono F F' w e : located F w e -> grows F F' -> located F' w e.
Proof. intros H HF. destruct e; try exact H; destruct H as (s & H1 & H2); exists s; auto. Qed.

(** Programs of a goroutine at [w] that is not in the middle of a command. *)
Inductive disc : facts -> spot -> prog -> Prop :=
| dc_ret F w r : disc F w (Ret r)
| dc_vis F w e (k : resp e -> prog) : located F w e -> (forall (F' : facts) r, grows F F' -> F' (obs e r) -> disc F' w (k r)) -> disc F w (Vis e k)
| dc_start F w x (k : bool -> prog) (kk : bool -> prog) : place x = w -> (forall F', grows F F' -> disc F' w (k false)) -> k true = Vis (EEnd (x_task x) (x_path x)) kk ->
    (forall F' r, grows F F' -> disc F' w (kk r)) -> disc F w (Vis (EStart x) k)
| dc_fork (F : facts) w t s i lim c chs log k : F (OClaim t s Fresh) -> around s = w ->
    (forall F' j y, grows F F' -> chs !! j = Some y -> disc F' ((t, i, j) :: w) y.2) -> (forall F' l, grows F F' -> disc F' w (k l)) ->
    disc F w (Fork t [i] lim c chs log k).

Lemma disc_mono F w p : disc F w p -> forall F', grows F F' -> disc F' w p.
Proof.
  induction 1 as [F w r|F w e k Hl Hk _|F w x k kk Hp Hf _ E Hk _|F w t s i lim c chs log k Hs Hw Hc _ Hk _]; intros F' HF.
  - constructor.
  - constructor; [eapply located_mono; eassumption|]. intros F2 r H2. apply Hk. eapply grows_trans; eassumption.
  - eapply dc_start; [exact Hp| |exact E|]; intros; [apply Hf|apply Hk]; eapply grows_trans; eassumption.
  - eapply dc_fork; [apply HF; exact Hs|exact Hw| |]; intros; [eapply Hc; [|eassumption]|apply Hk]; eapply grows_trans; eassumption.
Qed.
Lemma disc_bind F w p f : disc F w p -> (forall F' r, grows F F' -> disc F' w (f r)) -> disc F w (bind p f).
Proof.
  induction 1 as [F w r|F w e k Hl _ IH|F w x k kk Hp _ IHf E _ IHk|F w t s i lim c chs log k Hs Hw Hc _ _ IHk]; intros Hf; simpl.
  - apply Hf. apply grows_refl.
  - constructor; [exact Hl|]. intros F' r HF Hr. apply IH; [exact HF|exact Hr|]. intros F2 r2 H2. apply Hf. eapply grows_trans; eassumption.
  - eapply (dc_start F w x _ (fun r => bind (kk r) f)); [exact Hp| |rewrite E; reflexivity|].
    + intros F' HF. apply IHf; [exact HF|]. intros F2 r2 H2. apply Hf. eapply grows_trans; eassumption.
    + intros F' r HF. apply IHk; [exact HF|]. intros F2 r2 H2. apply Hf. eapply grows_trans; eassumption.
  - eapply dc_fork; [exact Hs|exact Hw|exact Hc|]. intros F' l HF. apply IHk; [exact HF|]. intros F2 r2 H2. apply Hf. eapply grows_trans; eassumption.
Qed.
Lemma disc_then F w p wr q : disc F w p -> (forall F', grows F F' -> disc F' w q) -> disc F w (and_then p wr q).
Proof. intros Hp Hq. apply disc_bind; [exact Hp|]. intros F' [e|] HF; [constructor|apply Hq; exact HF]. Qed.

Section Runner.
  Context (k : config) (tasks : taskmap) (Hkeyed : forall n t, tasks !! n = Some t -> t_name t = n).
  Lemma disc_quiet F w e (kk : resp e -> prog) : (forall F, located F w e) -> (forall (F' : facts) r, grows F F' -> disc F' w (kk r)) -> disc F w (Vis e kk).
  Proof. intros He Hk. constructor; [apply He|]. intros. apply Hk. assumption. Qed.
  Ltac go F' r HF := apply disc_quiet; [intros; exact I|intros F' r HF].
  Ltac ends := intros; constructor.

  Lemma disc_env F w ln vars env f : (forall F' m, grows F F' -> disc F' w (f m)) -> disc F w (interpolate_env_then k ln vars env f).
  Proof. intros Hf. unfold interpolate_env_then. destruct (decide _); [apply Hf, grows_refl|]. go F' r HF. destruct (interpolate_env _ _ _ _); [apply Hf; exact HF|constructor]. Qed.
  Lemma disc_dir F w t pa ln c vars f : (forall F' d, grows F F' -> disc F' w (f d)) -> disc F w (resolve_dir_then k t pa ln c vars f).
  Proof.
    intros Hf. unfold resolve_dir_then. destruct (match (match c with [] => t_dir t | _ => c end) with [] => k_dir k | _ => _ end) eqn:E; [apply Hf, grows_refl|].
    destruct (interpolate _ _ _); [|constructor]. go F' r HF. destruct r; try constructor. apply Hf. exact HF.
  Qed.
  Lemma item_around_eq T pa s s' : around s = around s' -> item_around T pa s = item_around T pa s'.
  Proof. intros E. unfold item_around. rewrite E. reflexivity. Qed.
  Lemma disc_command (F : facts) c t pa l env a s : F (OClaim (t_name t) s Fresh) -> around (a_scope a) = around s -> disc F (item_around (t_name t) pa s) (execute_command k c t pa l env a).
  Proof.
    intros HC Hs. unfold execute_command. destruct (trim_space (c_cmd c)); [constructor|]. go F1 r H1.
    destruct (interpolate _ _ _); [|constructor]. apply disc_env. intros F2 cmdenv H2. apply disc_dir. intros F3 d H3.
    destruct (k_dry k); [go F4 u H4; constructor|].
    match goal with |- context [if is_silent ?l then ?g else _] => set (start := g) end. assert (Hgo : forall F, disc F (item_around (t_name t) pa s) start).
    { intros F'. unfold start. go F4 o H4. eapply dc_start; [apply item_around_eq; exact Hs|ends|reflexivity|]. intros F5 [|] H5; constructor. }
    destruct (is_silent _); [apply Hgo|]. constructor; [exists s; auto|]. intros. apply Hgo.
  Qed.

  Section Calls.
    Context (rt : str -> args -> prog) (Hrt : forall F n a, disc F (around (a_scope a)) (rt n a)).

    Lemma disc_leaf (F : facts) it t pa l env a s : (pa <> [] /\ length pa <= 2) -> F (OClaim (t_name t) s Fresh) -> around (a_scope a) = around s ->
      disc F (item_around (t_name t) pa s) (execute_run_item k rt it t pa l env a).
    Proof.
      intros Hpa HC Hs. destruct it as [c|r|lg|q|o items]; simpl; try constructor; [apply disc_command; assumption| |exact I|].
      - destruct (k_dry k); [go F1 u H1; constructor|].
        assert (E : item_around (t_name t) pa s = around (with_scope a (FRef (t_name t) pa r))).
        { rewrite <- (item_around_eq _ _ _ _ Hs). unfold item_around, with_scope. simpl. destruct pa as [|i [|j [|]]]; reflexivity. }
        rewrite E. apply (Hrt F (r_task r) (Args _ _ _ _ _ _ _ (with_scope a (FRef (t_name t) pa r)))).
      - intros F1 vars H1 _. destruct (interpolate _ _ _); [|constructor]. destruct (k_dry k); [go F2 u H2; constructor|]. constructor; [exists s; auto|ends].
    Qed.
    Lemma disc_pre_deps F ds seen a w kk : around (a_scope a) = w -> (forall F' s, grows F F' -> disc F' w (kk s)) -> disc F w (pre_deps rt ds seen a kk).
    Proof.
      intros Hw. revert F seen. induction ds as [|d ds IH]; intros F seen Hk; simpl; [apply Hk, grows_refl|]. destruct (decide _); [apply IH; exact Hk|].
      go F1 r H1. assert (Hk1 : forall F' s, grows F1 F' -> disc F' w (kk s)) by (intros; apply Hk; eapply grows_trans; eassumption).
      assert (Hnext : forall F', grows F1 F' -> forall seen, disc F' w (pre_deps rt ds seen a kk)) by (intros F' HF seen'; apply IH; intros; apply Hk1; eapply grows_trans; eassumption).
      destruct r; [| |apply Hnext, grows_refl]; (apply disc_then; [rewrite <- Hw; apply Hrt|intros; apply Hnext; assumption]).
    Qed.
    Lemma disc_pre F items seen a w : around (a_scope a) = w -> disc F w (pre_resolve tasks rt items seen a).
    Proof.
      intros Hw. revert F seen. induction items as [|it items IH]; intros F seen; simpl; [constructor|]. destruct it; try apply IH.
      destruct (tasks !! r_task t); [|constructor]. apply disc_pre_deps; [exact Hw|]. intros F' s _. apply IH.
    Qed.
    Lemma disc_block (F : facts) o items t i l env c sub kk s : F (OClaim (t_name t) s Fresh) -> (forall j, around (a_scope (sub j)) = around s) -> (forall F' log, grows F F' -> disc F' (around s) (kk log)) ->
      disc F (around s) (fork k rt o items t [i] l env c sub kk).
    Proof.
      intros HC Hw Hk. unfold fork. apply (dc_fork _ _ _ s); [exact HC|reflexivity| |exact Hk]. intros F' j y HF Hj. rewrite list_lookup_imap in Hj. destruct (items !! j) as [it|]; [|discriminate Hj]. injection Hj as <-. simpl.
      apply (disc_leaf F' it t [i; j] _ _ (sub j) s); [simpl; split; [discriminate|lia]|apply HF; exact HC|apply Hw].
    Qed.
    Lemma disc_parallel (F : facts) o items t i l env a s : F (OClaim (t_name t) s Fresh) -> a_scope a = s -> disc F (around s) (execute_parallel k tasks rt o items t [i] l env a).
    Proof.
      intros HC <-. unfold execute_parallel. apply disc_then; [apply disc_pre; reflexivity|]. intros F1 H1. destruct (k_dry k); [go F2 u H2; constructor|].
      assert (C1 : F1 (OClaim (t_name t) (a_scope a) Fresh)) by (apply H1; exact HC).
      destruct (is_tui_mode _ && _ && _); [|apply disc_block; [exact C1|reflexivity|ends]].
      unfold execute_tui. simpl. match goal with |- context [fork _ _ _ _ _ _ _ _ _ _ ?f] => assert (Hf : forall (F' : facts) log, grows F1 F' -> disc F' (around (a_scope a)) (f log)) end.
      { intros F' log HF. destruct (is_silent _); [constructor|]. constructor; [exists (a_scope a); auto|ends]. }
      destruct (a_tui a); [apply disc_block; [exact C1|reflexivity|exact Hf]|]. go F2 r H2. go F3 r3 H3. destruct r3; [|constructor].
      apply disc_block; [auto|reflexivity|]. intros F4 log H4. apply Hf. eapply grows_trans; [|exact H4]. eapply grows_trans; eassumption.
    Qed.
    Lemma disc_item (F : facts) it t i l env a s : F (OClaim (t_name t) s Fresh) -> a_scope a = s -> disc F (around s) (execute_item k tasks rt it t i l env a).
    Proof.
      intros HC Hs. assert (HL : disc F (around s) (execute_run_item k rt it t [i] l env a)) by (apply (disc_leaf F it t [i] _ _ _ s); [simpl; split; [discriminate|lia]|exact HC|rewrite Hs; reflexivity]).
      destruct it as [c|r|lg|q|o items]; try exact HL; simpl.
      - go F1 r H1. destruct (interpolate_prompt _ _ _); [|constructor]. destruct (k_dry k); [go F2 u H2; constructor|]. constructor; [exists s; split; [apply H1; exact HC|reflexivity]|].
        intros F2 r2 H2 _. destruct r2; [|constructor]. go F3 u H3. constructor.
      - destruct (k_dry k); [go F1 u H1; constructor|]. go F1 vars H1. go F2 l2 H2. apply disc_parallel; [auto|exact Hs].
    Qed.
    Lemma disc_items items t a l env s : a_scope a = s -> forall (F : facts) i ex sk, F (OClaim (t_name t) s Fresh) -> disc F (around s) (execute_items k tasks rt items t i ex sk l env a).
    Proof.
      intros Hs. induction items as [|it items IH]; intros F i ex sk HC; simpl; [destruct ex, sk; constructor|]. go F1 r H1. destruct r; [constructor|].
      destruct (negb _); [go F2 u H2; apply IH; auto|].
      match goal with |- context [match item_when it with [] => ?g | _ => _ end] => set (body := g) end.
      assert (Hb : forall F', grows F1 F' -> disc F' (around s) body).
      { intros F' HF. unfold body. apply disc_bind; [apply disc_item; [auto|exact Hs]|]. intros F2 r H2. go F3 u H3. destruct r; [constructor|apply IH; auto]. }
      destruct (item_when it); [apply Hb, grows_refl|]. go F2 vars H2. destruct (evaluate _ _ _) as [[|]|]; [apply Hb; exact H2|go F3 u H3; apply IH; auto|constructor].
    Qed.
    Lemma disc_task (F : facts) t a s : a_scope a = s -> F (OClaim (t_name t) s Fresh) -> disc F (around s) (execute_task k tasks rt t a).
    Proof.
      intros Hs HC. unfold execute_task. destruct (t_vars t).
      - go F1 r1 H1. go F2 r2 H2. destruct (resolve_vars _ _ _ _); [|constructor]. go F3 r3 H3. apply disc_env. intros. apply disc_items; auto.
      - go F1 r1 H1. apply disc_env. intros. apply disc_items; auto.
    Qed.
    Lemma disc_deps F n ds a kk : (forall F', grows F F' -> disc F' (around (a_scope a)) kk) -> disc F (around (a_scope a)) (run_deps rt n ds a kk).
    Proof.
      revert F. induction ds as [|d ds IH]; intros F Hk; simpl; [apply Hk, grows_refl|]. apply disc_then; [apply (Hrt F d (Args _ _ _ _ _ _ _ (with_scope a (FDep n))))|].
      intros F' HF. apply IH. intros. apply Hk. eapply grows_trans; eassumption.
    Qed.
  End Calls.

  Lemma disc_run_task fuel : forall F n a, disc F (around (a_scope a)) (run_task k tasks fuel n a).
  Proof.
    induction fuel as [|fuel IH]; intros F n a; simpl; [constructor|]. constructor; [exact I|]. intros F1 r H1 HC. simpl in HC. destruct r; [|go F2 u H2; constructor|constructor].
    destruct (tasks !! n) as [t|] eqn:Ht; [|constructor]. pose proof (Hkeyed _ _ Ht) as Hn.
    match goal with |- context [match t_when t with [] => ?g | _ => _ end] => set (body := g) end.
    assert (Hb : forall F', grows F1 F' -> disc F' (around (a_scope a)) body).
    { intros F' HF. unfold body.
      assert (Hr : forall F', grows F1 F' -> disc F' (around (a_scope a)) (run_deps (run_task k tasks fuel) n (t_deps t) a
                      (match t_run t with [] => Vis (EDone n) (fun _ => Ret None) | _ => and_then (execute_task k tasks (run_task k tasks fuel) t a) id (Vis (EDone n) (fun _ => Ret None)) end))).
      { intros F2 H2. apply disc_deps; [exact IH|]. intros F3 H3. destruct (t_run t); [go F4 u H4; constructor|].
        apply disc_then; [apply disc_task; [exact IH|reflexivity|rewrite Hn; auto]|]. intros F4 H4. go F5 u H5. constructor. }
      destruct (negb (k_dry k) && _); [|apply Hr; exact HF]. constructor; [exists (a_scope a); auto|]. intros F2 u H2 _. apply Hr. eapply grows_trans; eassumption. }
    destruct (t_when t); [apply Hb, grows_refl|]. go F2 vars H2. destruct (evaluate _ _ _) as [[|]|]; [apply Hb; exact H2|go F3 u3 H3; go F4 u4 H4; constructor|constructor].
  Qed.
End Runner.

(** ** Steps *)
Inductive busy : spot -> proc_info -> prog -> Prop :=
| b_here w x k : place x = w -> busy w x (Vis (EEnd (x_task x) (x_path x)) k)
| b_in w x t i lim c chs log k j p : chs !! j = Some (Running, p) -> busy ((t, i, j) :: w) x p -> busy w x (Fork t [i] lim c chs log k).
Inductive st : facts -> spot -> prog -> Prop :=
| st_disc F w p : disc F w p -> st F w p
| st_busy F w x (k : bool -> prog) : place x = w -> (forall F' r, grows F F' -> disc F' w (k r)) -> st F w (Vis (EEnd (x_task x) (x_path x)) k)
| st_fork (F : facts) w t s i lim c chs log k : F (OClaim t s Fresh) -> around s = w ->
    (forall F' j y, grows F F' -> chs !! j = Some y -> st F' ((t, i, j) :: w) y.2) -> (forall F' l, grows F F' -> disc F' w (k l)) ->
    st F w (Fork t [i] lim c chs log k).

Lemma busy_place w x p : busy w x p -> exists l, place x = l ++ w.
Proof.
  induction 1 as [w x k E|w x t i lim c chs log k j p _ _ [l IH]]; [exists []; exact E|]. exists (l ++ [(t, i, j)]). rewrite <- app_assoc. exact IH.
Qed.

Lemma st_mono F F' w p : st F w p -> grows F F' -> st F' w p.
Proof.
  destruct 1 as [F w p H|F w x k H1 H2|F w t s i lim c chs log k H1 H2 H3 H4]; intros HF; [apply st_disc; eapply disc_mono; eassumption|apply st_busy; [exact H1|]|eapply st_fork; [apply HF; exact H1|exact H2| |]].
  - intros. apply H2. eapply grows_trans; eassumption.
  - intros. apply H3; [eapply grows_trans; eassumption|assumption].
  - intros. apply H4. eapply grows_trans; eassumption.
Qed.

(** What a program in state [st] may look like. *)
Definition st_view (F : facts) (w : spot) (p : prog) : Prop :=
  match p with
  | Ret _ => True
  | Vis e k =>
      match e as e return (resp e -> prog) -> Prop with
      | EStart x => fun k => place x = w /\ (forall F', grows F F' -> disc F' w (k false)) /\
                     exists kk : bool -> prog, k true = Vis (EEnd (x_task x) (x_path x)) kk /\ forall F' r, grows F F' -> disc F' w (kk r)
      | EEnd T pa => fun k => forall F' r, grows F F' -> disc F' w (k r)
      | e => fun k => located F w e /\ forall (F' : facts) r, grows F F' -> F' (obs e r) -> disc F' w (k r)
      end k
  | Fork t pa lim c chs log k => exists i s, pa = [i] /\ F (OClaim t s Fresh) /\ around s = w /\
      (forall F' j y, grows F F' -> chs !! j = Some y -> st F' ((t, i, j) :: w) y.2) /\ forall F' l, grows F F' -> disc F' w (k l)
  end.
Lemma disc_view F w p : disc F w p -> st_view F w p.
Proof.
  destruct 1; simpl; [exact I| | |].
  - destruct e; try (split; assumption); destruct H.
  - eauto 6.
  - exists i, s. split; [reflexivity|]. split; [assumption|]. split; [assumption|]. split; [|assumption]. intros F' j y HF Hj. apply st_disc. eauto.
Qed.
Lemma st_view_of F w p : st F w p -> st_view F w p.
Proof. destruct 1; [apply disc_view; assumption|simpl; assumption|]. simpl. eauto 10. Qed.

Lemma upd_child (P : nat -> cstat * prog -> Prop) (chs : list (cstat * prog)) j y : (forall j' x, chs !! j' = Some x -> P j' x) -> P j y ->
  forall j' x, <[j := y]> chs !! j' = Some x -> P j' x.
Proof. intros H Hy j' x Hx. apply list_lookup_insert_Some in Hx as [(<- & <- & _)|(_ & Hx)]; [exact Hy|eauto]. Qed.

Lemma st_step p ev p' : pstep p ev p' -> forall (F F' : facts) w, st F w p -> grows F F' -> F' ev -> st F' w p'.
Proof.
  assert (upd : forall (F F' : facts) w t s i lim c chs log' k j y, F (OClaim t s Fresh) -> around s = w -> (forall F' j y, grows F F' -> chs !! j = Some y -> st F' ((t, i, j) :: w) y.2) ->
            (forall F' l, grows F F' -> disc F' w (k l)) -> grows F F' -> (forall F2, grows F' F2 -> st F2 ((t, i, j) :: w) y.2) -> st F' w (Fork t [i] lim c (<[j := y]> chs) log' k)).
  { intros F F' w t s i lim c chs log' k j y Hs Hw Hc Hk HF Hy. apply (st_fork F' w t s); [apply HF; exact Hs|exact Hw| |intros; apply Hk; eapply grows_trans; eassumption].
    intros F2 j' y' H2 Hj. apply list_lookup_insert_Some in Hj as [(<- & <- & _)|(_ & Hj)]; [apply Hy; exact H2|]. apply Hc; [eapply grows_trans; eassumption|exact Hj]. }
  induction 1; intros F F' w Hs HF Hev; apply st_view_of in Hs; simpl in Hs.
  - destruct e; try (apply st_disc; apply (proj2 Hs); assumption); [|apply st_disc; apply Hs; exact HF].
    destruct Hs as (Hp & Hf & kk & E & Hk). destruct r; [rewrite E; apply st_busy; [exact Hp|]|apply st_disc; apply Hf; exact HF]. intros. apply Hk. eapply grows_trans; eassumption.
  - destruct Hs as (i & s & -> & Hs & Hw & Hc & Hk). eapply upd; try eassumption. intros F2 H2. simpl. apply (IHpstep F F2); [|eapply grows_trans; eassumption|apply H2; exact Hev].
    apply (Hc F j _ (grows_refl F) H).
  - destruct Hs as (i & s & -> & Hs & Hw & Hc & Hk). eapply upd; try eassumption. intros F2 H2. simpl. eapply (Hc F2 j (_, _)); [eapply grows_trans; eassumption|exact H].
  - destruct Hs as (i & s & -> & Hs & Hw & Hc & Hk). eapply upd; try eassumption. intros F2 H2. simpl. eapply (Hc F2 j (_, _)); [eapply grows_trans; eassumption|exact H].
  - destruct Hs as (i & s & -> & Hs & Hw & Hc & Hk). eapply upd; try eassumption. intros F2 H2. simpl. apply st_disc. constructor.
  - destruct Hs as (i & s & -> & Hs & Hw & Hc & Hk). eapply upd; try eassumption. intros F2 H2. simpl. eapply (Hc F2 j (_, _)); [eapply grows_trans; eassumption|exact H].
  - destruct Hs as (i & s & -> & Hs & Hw & Hc & Hk). apply st_disc. apply Hk. exact HF.
Qed.

Definition busy_view (w : spot) (x : proc_info) (p : prog) : Prop :=
  match p with
  | Ret _ => False
  | Vis e _ => e = EEnd (x_task x) (x_path x) /\ place x = w
  | Fork t pa _ _ chs _ _ => exists i j q, pa = [i] /\ chs !! j = Some (Running, q) /\ busy ((t, i, j) :: w) x q
  end.
Lemma busy_view_of w x p : busy w x p -> busy_view w x p.
Proof. destruct 1; simpl; eauto 6. Qed.

(** A command goes on until its end. *)
Lemma busy_step p ev p' : pstep p ev p' -> forall w x, busy w x p -> busy w x p' \/ exists ok, ev = OEnd (x_task x) (x_path x) ok.
Proof.
  induction 1; intros w x Hb; apply busy_view_of in Hb; simpl in Hb.
  - destruct Hb as [-> _]. right. exists r. reflexivity.
  - destruct Hb as (i & j' & q & -> & Hj & Hq). destruct (decide (j' = j)) as [->|Hne].
    + rewrite H in Hj. injection Hj as <-. destruct (IHpstep _ _ Hq) as [Hb|Hb]; [left|right; exact Hb]. eapply b_in; [|exact Hb]. apply list_lookup_insert. apply lookup_lt_Some in H. exact H.
    + left. eapply b_in; [|exact Hq]. rewrite list_lookup_insert_ne by congruence. exact Hj.
  - destruct Hb as (i & j' & q & -> & Hj & Hq). destruct (decide (j' = j)) as [->|Hne]; [congruence|]. left. eapply b_in; [|exact Hq]. rewrite list_lookup_insert_ne by congruence. exact Hj.
  - destruct Hb as (i & j' & q & -> & Hj & Hq). destruct (decide (j' = j)) as [->|Hne]; [congruence|]. left. eapply b_in; [|exact Hq]. rewrite list_lookup_insert_ne by congruence. exact Hj.
  - destruct Hb as (i & j' & q & -> & Hj & Hq). destruct (decide (j' = j)) as [->|Hne].
    + rewrite H in Hj. injection Hj as <-. apply busy_view_of in Hq. destruct Hq.
    + left. eapply b_in; [|exact Hq]. rewrite list_lookup_insert_ne by congruence. exact Hj.
  - destruct Hb as (i & j' & q & -> & Hj & Hq). destruct (decide (j' = j)) as [->|Hne]; [congruence|]. left. eapply b_in; [|exact Hq]. rewrite list_lookup_insert_ne by congruence. exact Hj.
  - destruct Hb as (i & j' & q & -> & Hj & Hq). rewrite Forall_lookup in H. destruct (H _ _ Hj) as [E|E]; discriminate E.
Qed.
(** A command that starts runs then. *)
Lemma start_step p ev p' : pstep p ev p' -> forall F w y, st F w p -> ev = OStart y true -> busy w y p'.
Proof.
  induction 1; intros F w y Hs E; try discriminate E; apply st_view_of in Hs; simpl in Hs.
  - destruct e; try discriminate E. simpl in E. injection E as -> ->. destruct Hs as (Hp & _ & kk & Ek & _). rewrite Ek. apply b_here. exact Hp.
  - destruct Hs as (i & s & -> & _ & _ & Hc & Hk). eapply b_in; [|apply (IHpstep _ _ y (Hc F j _ (grows_refl F) H) E)]. apply list_lookup_insert. apply lookup_lt_Some in H. exact H.
Qed.
(** What happens is at its place, and apart from commands that run. *)
Lemma spot_step p ev p' : pstep p ev p' -> forall F w, st F w p -> has_spot ev = true ->
  exists v, spot_of F ev v /\ (exists l, v = l ++ w) /\ forall x, busy w x p -> divided (place x) v.
Proof.
  induction 1; intros F w Hs E; try discriminate E; apply st_view_of in Hs; simpl in Hs.
  - exists w. assert (Hno : has_spot (obs e r) = true -> forall T pa, e <> EEnd T pa) by (intros He T pa ->; discriminate He).
    assert (Hb : forall x, busy w x (Vis e k) -> divided (place x) w) by (intros x Hx; apply busy_view_of in Hx as [Hx _]; destruct (Hno E _ _ Hx)).
    destruct e; try discriminate E; simpl in *; (split; [|split; [exists []; reflexivity|exact Hb]]); try apply (proj1 Hs). symmetry. apply (proj1 Hs).
  - destruct Hs as (i & s & -> & _ & _ & Hc & Hk). destruct (IHpstep F _ (Hc F j _ (grows_refl F) H) E) as (v & Hv & [l Hl] & Ha).
    exists v. split; [exact Hv|]. split; [exists (l ++ [(t, i, j)]); rewrite <- app_assoc; exact Hl|].
    intros x Hx. apply busy_view_of in Hx as (i' & j' & q & Ei & Hj & Hq). injection Ei as <-. destruct (decide (j' = j)) as [->|Hne].
    + rewrite H in Hj. injection Hj as <-. apply Ha. exact Hq.
    + destruct (busy_place _ _ _ Hq) as [l' Hl']. exists t, i, j', j, l', l, w. auto.
  - destruct Hs as (i & s & -> & Hs & Hw & Hc & Hk). exists ((t, i, j) :: w). split; [exists s, i; rewrite Hw; auto|]. split; [exists [(t, i, j)]; reflexivity|].
    intros x Hx. apply busy_view_of in Hx as (i' & j' & q & Ei & Hj & Hq). injection Ei as <-. destruct (decide (j' = j)) as [->|Hne].
    + rewrite H in Hj. injection Hj as <-. apply busy_view_of in Hq. destruct Hq.
    + destruct (busy_place _ _ _ Hq) as [l' Hl']. exists t, i, j', j, l', [], w. auto.
Qed.

Section Alone.
  Context (k : config) (tasks : taskmap) (root : str) (Hkeyed : forall n t, tasks !! n = Some t -> t_name t = n).
  Definition inv (h : hist) (p : prog) : Prop :=
    st (fun ev => ev ∈ h) [] p /\
    (forall x h2 h1, h = h2 ++ OStart x true :: h1 -> (forall ok, OEnd (x_task x) (x_path x) ok ∉ h2) -> busy [] x p) /\
    (forall x ev, during h x ev -> has_spot ev = true -> exists v, spot_of (fun e => e ∈ h) ev v /\ divided (place x) v).
  Lemma spot_of_mono F F' ev v : spot_of F ev v -> grows F F' -> spot_of F' ev v.
  Proof. intros H HF. destruct ev; try exact H; try (destruct H as (s & H1 & H2); exists s; auto). destruct H2 as (H2 & H3 & H4). exists H1. auto. Qed.
  Lemma grows_cons (ev : event) h : grows (fun e => e ∈ h) (fun e => e ∈ ev :: h).
  Proof. intros e He. right. exact He. Qed.
  Lemma inv_cons h p ev p' : inv h p -> st (fun e => e ∈ ev :: h) [] p' -> (forall x, busy [] x p -> busy [] x p' \/ exists ok, ev = OEnd (x_task x) (x_path x) ok) ->
    (forall y, ev = OStart y true -> busy [] y p') ->
    (has_spot ev = true -> exists v, spot_of (fun e => e ∈ h) ev v /\ forall x, busy [] x p -> divided (place x) v) -> inv (ev :: h) p'.
  Proof.
    intros (_ & H2 & H3) H1' Hb Hy Hv. split; [exact H1'|]. split.
    - intros x [|e h2] h1 E Hn; simpl in E; injection E as -> E; [apply (Hy x eq_refl)|]. destruct (Hb x) as [H|[ok ->]]; [|exact H|].
      + apply (H2 x h2 h1 E). intros ok Hok. apply (Hn ok). right. exact Hok.
      + destruct (Hn ok). left.
    - intros x e (h3 & h2 & h1 & E & Hn) He. destruct h3 as [|e3 h3]; simpl in E; injection E as -> E.
      + destruct (Hv He) as (v & Hs & Hd). exists v. split; [eapply spot_of_mono; [exact Hs|apply grows_cons]|]. apply Hd. apply (H2 x h2 h1 E Hn).
      + destruct (H3 x e) as (v & Hs & Hd); [exists h3, h2, h1; auto|exact He|]. exists v. split; [eapply spot_of_mono; [exact Hs|apply grows_cons]|exact Hd].
  Qed.
  Lemma inv_run h p : rtc (cstep (k_vars k)) ([], run_with_tasks k tasks root) (h, p) -> inv h p.
  Proof.
    intros Hr. cut (inv (h, p).1 (h, p).2); [intros H; exact H|]. revert Hr. generalize (h, p). clear h p.
    apply (rtc_ind_r (fun s => inv s.1 s.2)).
    - split; [apply st_disc; apply (disc_run_task k tasks Hkeyed _ _ root (Args true None None [] false None [0] []))|]. split.
      + intros x [|] h1 E; discriminate E.
      + intros x y ([|] & h2 & h1 & E & _); discriminate E.
    - intros c1 c2 _ Hs Hi. destruct Hs as [h q ev p' Hp _|h q i]; simpl in *; pose proof Hi as (Hst & _).
      + apply (inv_cons h q ev p' Hi); [apply (st_step _ _ _ Hp _ _ _ Hst); [apply grows_cons|left]|intros x; apply (busy_step _ _ _ Hp)| |].
        * intros y Ey. apply (start_step _ _ _ Hp _ [] y Hst Ey).
        * intros He. destruct (spot_step _ _ _ Hp _ _ Hst He) as (v & H1 & _ & H2). eauto.
      + apply (inv_cons h q _ q Hi); [|auto| |discriminate].
        * eapply st_mono; [exact Hst|apply grows_cons].
        * intros y Ey. discriminate Ey.
  Qed.
End Alone.
