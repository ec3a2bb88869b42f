(** When no parallel block contains a task reference, tasks run one at a time: a
    running task is always an ancestor of the one being claimed. *)
From Verif Require Import Base Interp_Model Cond_Model Types_Model Path_Model Valid_Spec Run_Model Run_Logic.

Definition calm_ev (ev : event) : Prop := match ev with OClaim _ _ _ | ODone _ => False | _ => True end.

(** Programs that neither claim nor complete a task. *)
Inductive calm : prog -> Prop :=
| calm_ret r : calm (Ret r)
| calm_vis e k : (forall r, calm_ev (obs e r)) -> (forall r, calm (k r)) -> calm (Vis e k)
| calm_fork t pa lim c chs log k : (forall j x, chs !! j = Some x -> calm x.2) -> (forall l, calm (k l)) -> calm (Fork t pa lim c chs log k).

Definition calm_vis_inv (p : prog) : Prop :=
  match p with
  | Ret _ => True
  | Vis e k => (forall r, calm_ev (obs e r)) /\ (forall r, calm (k r))
  | Fork _ _ _ _ chs _ k => (forall j x, chs !! j = Some x -> calm x.2) /\ (forall l, calm (k l))
  end.
Lemma calm_inv p : calm p -> calm_vis_inv p.
Proof. destruct 1; simpl; auto. Qed.

Lemma calm_step p ev p' : pstep p ev p' -> calm p -> calm_ev ev /\ calm p'.
Proof.
  assert (Hu : forall (chs : list (cstat * prog)) j y, (forall j x, chs !! j = Some x -> calm x.2) -> calm y.2 ->
            forall j' x, <[j := y]> chs !! j' = Some x -> calm x.2).
  { intros chs j y H Hy j' x Hx. destruct (decide (j' = j)) as [->|Hne].
    - apply list_lookup_insert_Some in Hx as [(_ & <- & _)|(Hne & _)]; [exact Hy|congruence].
    - rewrite list_lookup_insert_ne in Hx by congruence. eauto. }
  induction 1; intros Hc; apply calm_inv in Hc; simpl in Hc; destruct Hc as [H1 H2].
  - auto.
  - destruct (IHpstep (H1 _ _ H)) as [A B]. split; [exact A|]. constructor; [|exact H2]. apply Hu; assumption.
  - split; [exact I|]. constructor; [|exact H2]. apply Hu; [assumption|]. exact (H1 _ _ H).
  - split; [exact I|]. constructor; [|exact H2]. apply Hu; [assumption|]. exact (H1 _ _ H).
  - split; [exact I|]. constructor; [|exact H2]. apply Hu; [assumption|]. constructor.
  - split; [exact I|]. constructor; [|exact H2]. apply Hu; [assumption|]. exact (H1 _ _ H).
  - split; [exact I|]. apply H2.
Qed.

(** The tasks that are running are [st]. *)
Definition running (st : list str) (h : hist) : Prop := forall m, status_of h m = Active <-> m ∈ st.

Lemma running_calm st h ev : calm_ev ev -> running st h -> running st (ev :: h).
Proof. intros Hc H m. rewrite <- (H m). destruct ev; simpl in *; try contradiction; reflexivity. Qed.

Section Seq.
  Context (g : gmap str str) (P : str -> Prop).

  Definition fine_step (h : hist) (ev : event) : Prop := match ev with OClaim n _ Active => P n | _ => True end.

  Definition sq (Q : outcome -> hist -> Prop) (h : hist) (p : prog) : Prop :=
    forall h' p', rtc (cstep g) (h, p) (h', p') ->
      (forall ev p2, pstep p' ev p2 -> allowed g h' ev -> fine_step h' ev) /\ (forall r, p' = Ret r -> Q r h').

  Lemma sq_coind (Q : outcome -> hist -> Prop) (I : hist -> prog -> Prop) :
    (forall h p, I h p -> (forall ev p2, pstep p ev p2 -> allowed g h ev -> fine_step h ev /\ I (ev :: h) p2) /\
       (forall i, I (OCancel i :: h) p) /\ (forall r, p = Ret r -> Q r h)) ->
    forall h p, I h p -> sq Q h p.
  Proof.
    intros HI h p H0 h' p' Hr.
    assert (H1 : I h' p').
    { remember (h, p) as x eqn:Ex. remember (h', p') as y eqn:Ey. revert h p Ex H0 h' p' Ey.
      induction Hr as [x|x y z Hxy Hyz IH]; intros h p Ex H0 h' p' Ey; [rewrite Ey in Ex; injection Ex as -> ->; exact H0|].
      subst. destruct (HI _ _ H0) as (A & B & _). inversion Hxy; subst.
      - eapply (IH _ _ eq_refl); [|reflexivity]. apply (A ev); assumption.
      - eapply (IH _ _ eq_refl); [|reflexivity]. apply B. }
    destruct (HI _ _ H1) as (A & _ & C). split; [|exact C]. intros ev p2 Hs Ha. apply (A ev p2 Hs Ha).
  Qed.
  Lemma sq_unfold Q h p : sq Q h p ->
    (forall ev p2, pstep p ev p2 -> allowed g h ev -> fine_step h ev /\ sq Q (ev :: h) p2) /\
    (forall i, sq Q (OCancel i :: h) p) /\ (forall r, p = Ret r -> Q r h).
  Proof.
    intros Hs. destruct (Hs _ _ (rtc_refl _ _)) as [H1 H2]. split; [|split; [|exact H2]].
    - intros ev p2 Hp Ha. split; [eauto|]. intros h' p' Hr. apply Hs. eapply rtc_l; [|exact Hr]. constructor; assumption.
    - intros i h' p' Hr. apply Hs. eapply rtc_l; [|exact Hr]. apply cs_cancel.
  Qed.

  (** Postconditions are about which tasks run; a cancellation does not matter. *)
  Definition post (st : list str) (r : outcome) (h : hist) : Prop := r = None -> running st h.

  Lemma sq_ret st h r : (r = None -> running st h) -> sq (post st) h (Ret r).
  Proof.
    intros H. apply (sq_coind _ (fun h p => p = Ret r /\ (r = None -> running st h))); [|auto].
    clear h H. intros h p [-> H]. split; [|split].
    - intros ev p2 Hp. exfalso. eapply ret_nostep; exact Hp.
    - intros i. split; [reflexivity|]. intros E. apply running_calm; [exact I|auto].
    - intros r' E. injection E as <-. exact H.
  Qed.

  Lemma sq_vis st0 st h e k : running st0 h ->
    (forall h' r, running st0 h' -> allowed g h' (obs e r) -> fine_step h' (obs e r) /\ sq (post st) (obs e r :: h') (k r)) ->
    sq (post st) h (Vis e k).
  Proof.
    intros H0 HV. apply (sq_coind _ (fun h p => (p = Vis e k /\ running st0 h) \/ sq (post st) h p)); [|auto].
    clear h H0. intros h p [[-> H0]|Hs].
    - split; [|split; [|discriminate]].
      + intros ev p2 Hp Ha. destruct (pstep_vis _ _ _ Hp) as (r & -> & ->). destruct (HV h r H0 Ha). auto.
      + intros i. left. split; [reflexivity|]. apply running_calm; [exact I|exact H0].
    - destruct (sq_unfold _ _ _ Hs) as (A & B & C). split; [|split; [|exact C]].
      + intros ev p2 Hp Ha. destruct (A ev p2 Hp Ha). auto.
      + intros i. right. apply B.
  Qed.
  Lemma sq_do st0 st h e k : running st0 h -> (forall r, calm_ev (obs e r)) ->
    (forall h' r, running st0 h' -> sq (post st) h' (k r)) -> sq (post st) h (Vis e k).
  Proof.
    intros H0 Hc H. eapply sq_vis; [exact H0|]. intros h' r H1 _. split; [|apply H; apply running_calm; auto].
    specialize (Hc r). destruct (obs e r); simpl in *; try exact I; contradiction.
  Qed.

  Lemma sq_bind st st' h p f : sq (post st) h p ->
    (forall h', running st h' -> sq (post st') h' (f None)) -> (forall h' e, sq (post st') h' (f (Some e))) -> sq (post st') h (bind p f).
  Proof.
    intros Hp HN HE. apply (sq_coind _ (fun h q => (exists p, q = bind p f /\ sq (post st) h p) \/ sq (post st') h q)); [|left; eauto].
    assert (Hs : forall h q, sq (post st') h q ->
      (forall ev p2, pstep q ev p2 -> allowed g h ev -> fine_step h ev /\ ((exists p, p2 = bind p f /\ sq (post st) (ev :: h) p) \/ sq (post st') (ev :: h) p2)) /\
      (forall i, (exists p, q = bind p f /\ sq (post st) (OCancel i :: h) p) \/ sq (post st') (OCancel i :: h) q) /\
      (forall r, q = Ret r -> post st' r h)).
    { intros h1 q Hq. destruct (sq_unfold _ _ _ Hq) as (A & B & C). split; [|split; [|exact C]].
      - intros ev p2 Hs Ha. destruct (A ev p2 Hs Ha). auto.
      - intros i. right. apply B. }
    clear h p Hp. intros h q [(p & -> & Hp)|Hq]; [|apply Hs; exact Hq].
    destruct (sq_unfold _ _ _ Hp) as (A & B & C).
    assert (Hgo : (forall r, p <> Ret r) ->
      (forall ev p2, pstep (bind p f) ev p2 -> allowed g h ev -> fine_step h ev /\ ((exists p, p2 = bind p f /\ sq (post st) (ev :: h) p) \/ sq (post st') (ev :: h) p2)) /\
      (forall i, (exists p', bind p f = bind p' f /\ sq (post st) (OCancel i :: h) p') \/ sq (post st') (OCancel i :: h) (bind p f))).
    { intros Hn. split.
      - intros ev p2 Hq Ha. apply pstep_bind_inv in Hq as (q2 & Hq & ->); [|exact Hn]. destruct (A _ _ Hq Ha). split; [assumption|left; eauto].
      - intros i. left. exists p. auto. }
    destruct p as [r|e kk|t pa lim c chs log kk].
    - apply Hs. simpl. destruct r as [e|]; [apply HE|]. apply HN. apply (C None eq_refl). reflexivity.
    - destruct Hgo as [X Y]; [discriminate|]. split; [exact X|]. split; [exact Y|discriminate].
    - destruct Hgo as [X Y]; [discriminate|]. split; [exact X|]. split; [exact Y|discriminate].
  Qed.
  Lemma sq_then st st' h p w k : sq (post st) h p -> (forall h', running st h' -> sq (post st') h' k) -> sq (post st') h (and_then p w k).
  Proof. intros Hp Hk. eapply sq_bind; [exact Hp|exact Hk|]. intros h' e. apply sq_ret. discriminate. Qed.

  Lemma sq_calm st h p : running st h -> calm p -> sq (post st) h p.
  Proof.
    intros H0 Hc. apply (sq_coind _ (fun h p => running st h /\ calm p)); [|auto]. clear h p H0 Hc. intros h p [H0 Hc]. split; [|split].
    - intros ev p2 Hs Ha. destruct (calm_step _ _ _ Hs Hc) as [A B]. split; [|split; [apply running_calm; assumption|exact B]].
      destruct ev; simpl in *; try exact I; contradiction.
    - intros i. split; [apply running_calm; [exact I|exact H0]|exact Hc].
    - intros r _ _. exact H0.
  Qed.
End Seq.

Section Runner.
  Context (k : config) (tasks : taskmap).
  Notation g := (k_vars k).

  (** No parallel block contains a task reference. *)
  Definition lone : Prop :=
    forall T t i o items r, tasks !! T = Some t -> t_run t !! i = Some (RPar o items) -> RTask r ∉ items.
  Context (Hlone : lone).
  Notation P := (fun n : str => tc (edge tasks) n n).

  Ltac calmly := apply calm_vis; [intros; exact I|intros].

  Lemma calm_env ln vars env f : (forall m, calm (f m)) -> calm (interpolate_env_then k ln vars env f).
  Proof. intros Hf. unfold interpolate_env_then. destruct (decide _); [apply Hf|]. calmly. destruct (interpolate_env _ _ _ _); [apply Hf|constructor]. Qed.
  Lemma calm_dir t pa ln c vars f : (forall d, calm (f d)) -> calm (resolve_dir_then k t pa ln c vars f).
  Proof.
    intros Hf. unfold resolve_dir_then. destruct (match (match c with [] => t_dir t | _ => c end) with [] => k_dir k | _ => _ end) eqn:E; [apply Hf|].
    destruct (interpolate _ _ _); [|constructor]. calmly. destruct r; try constructor. apply Hf.
  Qed.
  Lemma calm_command c t pa l env a : calm (execute_command k c t pa l env a).
  Proof.
    unfold execute_command. destruct (trim_space (c_cmd c)); [constructor|]. calmly.
    destruct (interpolate _ _ _); [|constructor]. apply calm_env. intros cmdenv. apply calm_dir. intros d.
    destruct (k_dry k); [calmly; constructor|].
    set (go := Vis (EOrder cmdenv) _). assert (calm go) as Hgo.
    { unfold go. calmly. calmly. destruct r1; [|constructor]. calmly. destruct r1; constructor. }
    destruct (is_silent _); [exact Hgo|]. calmly. exact Hgo.
  Qed.
  Lemma calm_leaf rt it t pa l env a : (forall r, it <> RTask r) -> calm (execute_run_item k rt it t pa l env a).
  Proof.
    intros Hn. destruct it; simpl; try constructor; [apply calm_command|exfalso; eapply Hn; reflexivity| |].
    - intros; exact I.
    - intros vars. destruct (interpolate _ _ _); [|constructor]. destruct (k_dry k); calmly; constructor.
  Qed.
  Lemma calm_pre rt items seen a : (forall r, RTask r ∉ items) -> calm (pre_resolve tasks rt items seen a).
  Proof.
    intros Hn. induction items as [|it items IH]; simpl; [constructor|].
    assert (Hn' : forall r, RTask r ∉ items) by (intros r H; apply (Hn r); right; exact H).
    destruct it; try (apply IH; exact Hn'). exfalso. apply (Hn t). left.
  Qed.
  Lemma calm_block rt o items t pa l env c sub kk : (forall r, RTask r ∉ items) -> (forall log, calm (kk log)) -> calm (fork k rt o items t pa l env c sub kk).
  Proof.
    intros Hn Hkk. unfold fork. constructor; [|exact Hkk]. intros j x Hj. rewrite list_lookup_imap in Hj.
    destruct (items !! j) as [it|] eqn:E; [|discriminate]. injection Hj as <-. simpl. apply calm_leaf. intros r ->.
    apply (Hn r). eapply elem_of_list_lookup_2. exact E.
  Qed.
  Lemma calm_bind p f : calm p -> (forall r, calm (f r)) -> calm (bind p f).
  Proof. intros Hp Hf. induction Hp; simpl; [apply Hf|constructor; auto|constructor; auto]. Qed.
  Lemma calm_parallel rt o items t pa l env a : (forall r, RTask r ∉ items) -> calm (execute_parallel k tasks rt o items t pa l env a).
  Proof.
    intros Hn. unfold execute_parallel, and_then. apply calm_bind; [apply calm_pre; exact Hn|]. intros [e|]; [constructor|].
    destruct (k_dry k); [calmly; constructor|]. destruct (is_tui_mode _ && _ && _); [|apply calm_block; [exact Hn|intros; constructor]].
    unfold execute_tui. simpl.
    match goal with |- context [fork _ _ _ _ _ _ _ _ _ _ ?f] => assert (Hf : forall log, calm (f log)) end.
    { intros log. destruct (is_silent _); [constructor|]. calmly. constructor. }
    destruct (a_tui a); [apply calm_block; [exact Hn|exact Hf]|]. calmly. calmly. destruct r0; [apply calm_block; [exact Hn|exact Hf]|constructor].
  Qed.

  Lemma refers_at T t i r : tasks !! T = Some t -> t_run t !! i = Some (RTask r) -> edge tasks T (r_task r).
  Proof.
    intros Ht Hi. exists t. split; [exact Ht|]. right. revert i Hi. generalize (t_run t) as l. induction l as [|it l IH]; intros i Hi; [discriminate|].
    destruct i as [|i]; simpl in Hi; [injection Hi as ->; constructor|]. apply refers_later. eapply IH. exact Hi.
  Qed.

  Section Calls.
    Context (rt : str -> args -> prog).
    Context (Hrt : forall n a st h, running st h -> (forall m, m ∈ st -> tc (edge tasks) m n) -> sq g P (post st) h (rt n a)).
    Context (T : str) (t : task) (Ht : tasks !! T = Some t) (st : list str).
    Context (Hst : forall m n, m ∈ st -> edge tasks T n -> tc (edge tasks) m n).

    Lemma sq_item it i l env a h : t_run t !! i = Some it -> running st h -> sq g P (post st) h (execute_item k tasks rt it t i l env a).
    Proof.
      intros Hi Hr. destruct it; simpl.
      - apply sq_calm; [exact Hr|]. apply calm_command.
      - destruct (k_dry k); [apply sq_calm; [exact Hr|]; calmly; constructor|]. apply Hrt; [exact Hr|]. intros m Hm. eapply Hst; [exact Hm|].
        eapply refers_at; eassumption.
      - apply sq_calm; [exact Hr|]. apply (calm_leaf rt (RLog l0) t [i] l env a). discriminate.
      - apply sq_calm; [exact Hr|]. calmly. destruct (interpolate_prompt _ _ _); [|constructor]. destruct (k_dry k); [calmly; constructor|].
        calmly. destruct r0; [calmly|]; constructor.
      - apply sq_calm; [exact Hr|]. destruct (k_dry k); [calmly; constructor|]. calmly. calmly. apply calm_parallel. intros r' Hin. eapply Hlone; eassumption.
    Qed.

    Lemma sq_items items i ex sk l env a h : (forall j it, items !! j = Some it -> t_run t !! (i + j) = Some it) -> running st h ->
      sq g P (post st) h (execute_items k tasks rt items t i ex sk l env a).
    Proof.
      revert i ex sk h. induction items as [|it items IH]; intros i ex sk h Hi Hr; [simpl; destruct ex, sk; apply sq_ret; auto|]. simpl.
      assert (Hi' : forall j it', items !! j = Some it' -> t_run t !! (S i + j) = Some it') by (intros j it' Hj; rewrite Nat.add_succ_comm; apply (Hi (S j)); exact Hj).
      assert (Hi0 : t_run t !! i = Some it) by (rewrite <- (Nat.add_0_r i); apply Hi; reflexivity).
      eapply sq_do; [exact Hr|intros; exact I|]. intros h1 done Hr1. destruct done; [apply sq_ret; discriminate|].
      destruct (negb _).
      { eapply sq_do; [exact Hr1|intros; exact I|]. intros h2 _ Hr2. apply IH; assumption. }
      set (go := bind _ _). assert (Hgo : forall h', running st h' -> sq g P (post st) h' go).
      { intros h' Hr'. unfold go. eapply sq_bind; [apply sq_item; [exact Hi0|exact Hr']| |].
        - intros h2 Hr2. eapply sq_do; [exact Hr2|intros; exact I|]. intros h3 _ Hr3. apply IH; assumption.
        - intros h2 e. apply (sq_coind g P _ (fun h p => p = Vis (ERet (t_name t) [i] (Some e)) (fun _ => Ret (Some e)) \/ p = Ret (Some e))); [|left; reflexivity].
          clear. intros h p [-> | ->].
          + split; [|split; [auto|discriminate]]. intros ev p2 Hp _. destruct (pstep_vis _ _ _ Hp) as (r & -> & ->). split; [exact I|auto].
          + split; [|split; [auto|]]; [intros ev p2 Hp; exfalso; eapply ret_nostep; exact Hp|]. intros r E. injection E as <-. discriminate. }
      destruct (item_when it) as [|x w]; [apply Hgo; exact Hr1|].
      eapply sq_do; [exact Hr1|intros; exact I|]. intros h2 vars Hr2. destruct (evaluate _ _ _) as [[|]|]; [apply Hgo; exact Hr2| |apply sq_ret; discriminate].
      eapply sq_do; [exact Hr2|intros; exact I|]. intros h3 _ Hr3. apply IH; assumption.
    Qed.

    Lemma sq_env ln vars env f h : running st h -> (forall h' m, running st h' -> sq g P (post st) h' (f m)) ->
      sq g P (post st) h (interpolate_env_then k ln vars env f).
    Proof.
      intros Hr Hf. unfold interpolate_env_then. destruct (decide _); [apply Hf; exact Hr|].
      eapply sq_do; [exact Hr|intros; exact I|]. intros h' order Hr'. destruct (interpolate_env _ _ _ _); [apply Hf; exact Hr'|apply sq_ret; discriminate].
    Qed.
    Lemma sq_task a h : running st h -> sq g P (post st) h (execute_task k tasks rt t a).
    Proof.
      intros Hr. unfold execute_task.
      assert (Hw : forall l vars h', running st h' -> sq g P (post st) h'
                (interpolate_env_then k (t_line t) vars (smap_get (merge_maps (k_env k) (t_env t))) (fun env => execute_items k tasks rt (t_run t) t 0 0 0 l env a))).
      { intros l vars h' Hr'. apply sq_env; [exact Hr'|]. intros h2 m Hr2. apply sq_items; [auto|exact Hr2]. }
      destruct (t_vars t).
      - eapply sq_do; [exact Hr|intros; exact I|]. intros h1 order Hr1. eapply sq_do; [exact Hr1|intros; exact I|]. intros h2 globals Hr2.
        destruct (resolve_vars _ _ _ _); [|apply sq_ret; discriminate]. eapply sq_do; [exact Hr2|intros; exact I|]. intros h3 l Hr3. apply Hw. exact Hr3.
      - eapply sq_do; [exact Hr|intros; exact I|]. intros h1 vars Hr1. apply Hw. exact Hr1.
    Qed.
    Lemma sq_deps st' deps a kk h : (forall d, d ∈ deps -> d ∈ t_deps t) -> running st h ->
      (forall h', running st h' -> sq g P (post st') h' kk) -> sq g P (post st') h (run_deps rt T deps a kk).
    Proof.
      intros Hd Hr Hk. revert h Hr. induction deps as [|d deps IH]; intros h Hr; simpl; [apply Hk; exact Hr|].
      eapply sq_then; [apply Hrt; [exact Hr|]|].
      - intros m Hm. eapply Hst; [exact Hm|]. exists t. split; [exact Ht|left]. apply Hd. left.
      - intros h' Hr'. apply IH; [|exact Hr']. intros d' H. apply Hd. right. exact H.
    Qed.
  End Calls.

  Lemma sq_run_task fuel n a st h : running st h -> (forall m, m ∈ st -> tc (edge tasks) m n) -> sq g P (post st) h (run_task k tasks fuel n a).
  Proof.
    revert n a st h. induction fuel as [|fuel IH]; intros n a st h Hr Hst; simpl; [apply sq_ret; discriminate|].
    eapply sq_vis; [exact Hr|]. intros h1 s Hr1 Ha. simpl in Ha. destruct s.
    - (* fresh *)
      split; [exact I|].
      assert (Hn : n ∉ st) by (intros H; apply Hr1 in H; congruence).
      assert (Hr2 : running (n :: st) (OClaim n (a_scope a) Fresh :: h1)).
      { intros m. simpl. rewrite elem_of_cons. destruct (decide (n = m)) as [->|Hne]; [split; auto|]. rewrite (Hr1 m). split; [auto|intros [H|H]; [congruence|exact H]]. }
      destruct (tasks !! n) as [t|] eqn:Et; [|apply sq_ret; discriminate].
      assert (Hdone : forall h', running (n :: st) h' -> sq g P (post st) h' (Vis (EDone n) (fun _ => Ret None))).
      { intros h' Hr'. eapply sq_vis; [exact Hr'|]. intros h2 u Hr3 _. split; [exact I|]. apply sq_ret. intros _ m. simpl.
        destruct (decide (n = m)) as [->|Hne]; [split; [discriminate|intros H; contradiction]|]. rewrite (Hr3 m), elem_of_cons.
        split; [intros [H|H]; [congruence|exact H]|auto]. }
      assert (Hst' : forall m d, m ∈ n :: st -> edge tasks n d -> tc (edge tasks) m d).
      { intros m d Hm He. apply elem_of_cons in Hm as [->|Hm]; [apply tc_once; exact He|]. eapply tc_r; [apply Hst; exact Hm|exact He]. }
      set (rest := run_deps _ _ _ _ _). assert (Hrest : forall h', running (n :: st) h' -> sq g P (post st) h' rest).
      { intros h' Hr'. unfold rest. apply (sq_deps (run_task k tasks fuel) IH n t Et (n :: st) Hst' st); [auto|exact Hr'|].
        intros h2 Hr3. destruct (t_run t) eqn:Erun; [apply Hdone; exact Hr3|].
        eapply sq_then; [apply (sq_task (run_task k tasks fuel) IH n t Et (n :: st) Hst'); exact Hr3|]. intros h3 Hr4. apply Hdone. exact Hr4. }
      set (body := if _ && _ then _ else rest). assert (Hbody : forall h', running (n :: st) h' -> sq g P (post st) h' body).
      { intros h' Hr'. unfold body. destruct (_ && _); [|apply Hrest; exact Hr']. eapply sq_do; [exact Hr'|intros; exact I|]. intros h2 _ Hr3. apply Hrest. exact Hr3. }
      destruct (t_when t); [apply Hbody; exact Hr2|]. eapply sq_do; [exact Hr2|intros; exact I|]. intros h2 globals Hr3.
      destruct (evaluate _ _ _) as [[|]|]; [apply Hbody; exact Hr3| |apply sq_ret; discriminate].
      eapply sq_do; [exact Hr3|intros; exact I|]. intros h3 _ Hr4. apply Hdone. exact Hr4.
    - (* active *)
      split; [apply Hst; apply Hr1; symmetry; exact Ha|]. eapply sq_do; [|intros; exact I|intros h2 m Hr2; apply sq_ret; discriminate].
      intros m. simpl. apply Hr1.
    - (* done *)
      split; [exact I|]. apply sq_ret. intros _ m. simpl. apply Hr1.
  Qed.

  Theorem lone_claims root h p n sc : rtc (cstep g) ([], run_with_tasks k tasks root) (h, p) -> OClaim n sc Active ∈ h -> tc (edge tasks) n n.
  Proof.
    intros Hr Hin.
    assert (Hq : sq g P (post []) [] (run_with_tasks k tasks root)).
    { apply sq_run_task; [|intros m H; inversion H]. intros m. simpl. split; [discriminate|]. intros H. inversion H. }
    assert (Hall : forall h' p', rtc (cstep g) ([], run_with_tasks k tasks root) (h', p') -> forall ev, ev ∈ h' -> fine_step P h' ev).
    { intros h' p' Hr'. refine (rtc_ind_r (fun s => forall ev, ev ∈ s.1 -> fine_step P s.1 ev) ([], run_with_tasks k tasks root) _ _ (h', p') Hr').
      - simpl. intros ev H. inversion H.
      - intros [h1 p1] z H1 Hz IH. inversion Hz; subst; simpl in *.
        + intros e He. apply elem_of_cons in He as [->|He].
          * destruct (Hq _ _ H1) as [A _]. eapply A; eassumption.
          * apply (IH e He).
        + intros e He. apply elem_of_cons in He as [->|He]; [exact I|apply (IH e He)]. }
    exact (Hall _ _ Hr _ Hin).
  Qed.
End Runner.
