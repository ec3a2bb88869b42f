(** Ownership of variable maps: a goroutine may change what it owns, and read that and
    what it shares with others. *)
From Verif Require Import Base Interp_Model Cond_Model Types_Model Path_Model Run_Model Run_Logic Race_Spec.

Notation locs := (nat -> Prop).
Definition plain (e : eff) : Prop := match e with ERead _ _ _ | EWrite _ _ _ _ _ | EAlloc _ _ _ => False | _ => True end.

Inductive ok : locs -> locs -> prog -> Prop :=
| ok_ret (X Y : locs) r : ok X Y (Ret r)
| ok_read (X Y : locs) t p l kk : (X l \/ Y l) -> (forall m, ok X Y (kk m)) -> ok X Y (Vis (ERead t p l) kk)
| ok_write (X Y : locs) t p l n v kk : X l -> (forall u, ok X Y (kk u)) -> ok X Y (Vis (EWrite t p l n v) kk)
| ok_alloc (X Y : locs) t p m kk : (forall r, ~ X r -> ~ Y r -> ok (fun x => X x \/ x = r) Y (kk r)) -> ok X Y (Vis (EAlloc t p m) kk)
| ok_plain (X Y : locs) e kk : plain e -> (forall r, ok X Y (kk r)) -> ok X Y (Vis e kk)
| ok_fork (X Y : locs) (Z : locs) (C : nat -> locs) t p lim c chs log kk :
    (forall l, Z l -> X l) -> (forall j l, C j l -> X l) -> (forall j l, C j l -> ~ Z l) -> (forall i j l, C i l -> C j l -> i = j) ->
    (forall j st q, chs !! j = Some (st, q) -> ok (C j) (fun l => Y l \/ Z l) q) ->
    (forall log', ok X Y (kk log')) ->
    ok X Y (Fork t p lim c chs log kk).

Lemma ok_mono X Y p : ok X Y p -> forall X' : locs, (forall l, X l -> X' l) -> ok X' Y p.
Proof.
  induction 1 as [X Y r|X Y t p l kk Hl Hk IH|X Y t p l n v kk Hl Hk IH|X Y t p m kk Hk IH|X Y e kk He Hk IH|X Y Z C t p lim c chs log kk HZ HC HCZ HCC Hch IHch Hk IH]; intros X' HX.
  - constructor.
  - constructor; [destruct Hl; auto|]. auto.
  - constructor; auto.
  - constructor. intros r Hr Hy. apply IH; auto. intros l [H|H]; auto.
  - constructor; auto.
  - eapply (ok_fork X' Y Z C); eauto.
Qed.

Lemma ok_bind X Y p f : ok X Y p -> (forall r, ok X Y (f r)) -> ok X Y (bind p f).
Proof.
  induction 1 as [X Y r|X Y t p l kk Hl Hk IH|X Y t p l n v kk Hl Hk IH|X Y t p m kk Hk IH|X Y e kk He Hk IH|X Y Z C t p lim c chs log kk HZ HC HCZ HCC Hch IHch Hk IH]; intros Hf; cbn [bind].
  - apply Hf.
  - constructor; auto.
  - constructor; auto.
  - constructor. intros r Hr Hy. apply IH; auto. intros r'. eapply ok_mono; [apply Hf|auto].
  - constructor; auto.
  - eapply (ok_fork X Y Z C); eauto.
Qed.
Lemma ok_then X Y p w q : ok X Y p -> ok X Y q -> ok X Y (and_then p w q).
Proof. intros Hp Hq. apply ok_bind; [exact Hp|]. intros [e|]; [constructor|exact Hq]. Qed.

(** ** Nobody races *)
Lemma ok_footprint X Y p who e l : ok X Y p -> pending p who e -> (writes e l -> X l) /\ (reads e l -> X l \/ Y l).
Proof.
  intros H. revert who. induction H as [X Y r|X Y t p l' kk Hl Hk IH|X Y t p l' n v kk Hl Hk IH|X Y t p m kk Hk IH|X Y e' kk He Hk IH|X Y Z C t p lim c chs log kk HZ HC HCZ HCC Hch IHch Hk IH];
    intros who Hp; inversion Hp; subst.
  - split; [intros []|]. intros <-. exact Hl.
  - split; [|intros []]. intros <-. exact Hl.
  - split; intros [].
  - destruct e; try contradiction; split; intros [].
  - match goal with H : chs !! _ = Some _, H' : pending _ _ _ |- _ => destruct (IHch _ _ _ H _ H') as [F1 F2] end.
    split; [intros Hw; eapply HC; eauto|]. intros Hr. destruct (F2 Hr) as [F|[F|F]]; eauto.
Qed.

Lemma ok_no_race X Y p : ok X Y p -> (forall l, X l -> ~ Y l) -> ~ race p.
Proof.
  induction 1 as [X Y r|X Y t p l' kk Hl Hk IH|X Y t p l' n v kk Hl Hk IH|X Y t p m kk Hk IH|X Y e' kk He Hk IH|X Y Z C t p lim c chs log kk HZ HC HCZ HCC Hch IHch Hk IH];
    intros Hd (who1 & who2 & e1 & e2 & l & Hne & P1 & P2 & W1 & A2); try (inversion P1; inversion P2; subst; congruence).
  inversion P1 as [|? ? ? ? ? ? ? j1 p1 w1 ? C1 Q1]; subst. inversion P2 as [|? ? ? ? ? ? ? j2 p2 w2 ? C2 Q2]; subst.
  destruct (decide (j1 = j2)) as [->|Hj].
  - assert (p1 = p2) as -> by congruence. eapply (IHch _ _ _ C1).
    + intros l0 H0 [H1|H1]; [exact (Hd _ (HC _ _ H0) H1)|exact (HCZ _ _ H0 H1)].
    + exists w1, w2, e1, e2, l. repeat split; auto. congruence.
  - destruct (ok_footprint _ _ _ _ _ l (Hch _ _ _ C1) Q1) as [F1 _]. destruct (ok_footprint _ _ _ _ _ l (Hch _ _ _ C2) Q2) as [F2 F3]. specialize (F1 W1).
    assert (D : C j2 l \/ Y l \/ Z l) by (destruct A2 as [A|A]; [left; auto|apply F3 in A as [A|A]; auto]).
    destruct D as [D|[D|D]]; [exact (Hj (HCC _ _ _ F1 D))|exact (Hd _ (HC _ _ F1) D)|exact (HCZ _ _ F1 D)].
Qed.

(** ** Steps *)
Definition new_loc (ev : event) (l : nat) : Prop := match ev with OAlloc _ _ _ l' => l' = l | _ => False end.
Definition ok_vis (X Y : locs) (e : eff) : (resp e -> prog) -> Prop :=
  match e as e0 return (resp e0 -> prog) -> Prop with
  | ERead _ _ l => fun kk => (X l \/ Y l) /\ forall m, ok X Y (kk m)
  | EWrite _ _ l _ _ => fun kk => X l /\ forall u, ok X Y (kk u)
  | EAlloc _ _ _ => fun kk => forall r, ~ X r -> ~ Y r -> ok (fun x => X x \/ x = r) Y (kk r)
  | _ => fun kk => forall r, ok X Y (kk r)
  end.
Definition ok_inv_of (X Y : locs) (p : prog) : Prop :=
  match p with
  | Ret _ => True
  | Vis e kk => ok_vis X Y e kk
  | Fork t pa lim c chs log kk => exists (Z : locs) (C : nat -> locs),
      (forall l, Z l -> X l) /\ (forall j l, C j l -> X l) /\ (forall j l, C j l -> ~ Z l) /\ (forall i j l, C i l -> C j l -> i = j) /\
      (forall j st q, chs !! j = Some (st, q) -> ok (C j) (fun l => Y l \/ Z l) q) /\ (forall log', ok X Y (kk log'))
  end.
Lemma ok_inv X Y p : ok X Y p -> ok_inv_of X Y p.
Proof.
  destruct 1 as [X Y r|X Y t p l kk Hl Hk|X Y t p l n v kk Hl Hk|X Y t p m kk Hk|X Y e kk He Hk|X Y Z C t p lim c chs log kk HZ HC HCZ HCC Hch Hk]; cbn; auto.
  - destruct e; try contradiction; exact Hk.
  - exists Z, C. auto 10.
Qed.

Lemma ok_step p ev p' : pstep p ev p' -> forall X Y, ok X Y p -> (forall l, new_loc ev l -> ~ X l /\ ~ Y l) -> ok (fun l => X l \/ new_loc ev l) Y p'.
Proof.
  assert (Hu : forall (chs : list (cstat * prog)) (C : nat -> locs) (Y : locs) j st q, (forall j st q, chs !! j = Some (st, q) -> ok (C j) Y q) -> ok (C j) Y q ->
            forall j' st' q', <[j := (st, q)]> chs !! j' = Some (st', q') -> ok (C j') Y q').
  { intros chs C Y j st q H Hy j' st' q' Hx. destruct (decide (j' = j)) as [->|Hne].
    - apply list_lookup_insert_Some in Hx as [(_ & E & _)|(Hne & _)]; [|congruence]. injection E as _ <-. exact Hy.
    - rewrite list_lookup_insert_ne in Hx by congruence. eauto. }
  induction 1 as [e kk r|t pa lim c chs log kk j q ev q' Hj Hq IH|t pa lim c chs log kk j q Hj Hl|t pa lim c chs log kk j q Hj Hl|t pa lim c chs log kk j r Hj|t pa lim c chs log kk j q Hj|t pa lim c chs log kk Hf];
    intros X Y Ho Hn; apply ok_inv in Ho; cbn [ok_inv_of] in Ho.
  - destruct e; cbn in Ho, Hn |- *; try (eapply ok_mono; [apply Ho|auto]; fail).
    destruct (Hn r eq_refl) as [N1 N2]. eapply ok_mono; [apply Ho; assumption|]. intros l [H|H]; auto.
  - destruct Ho as (Z & C & HZ & HC & HCZ & HCC & Hch & Hk).
    eapply (ok_fork _ _ Z (fun i l => C i l \/ i = j /\ new_loc ev l)).
    + auto.
    + intros i l [H|[_ H]]; [left; eauto|auto].
    + intros i l [H|[_ H]] HZl; [exact (HCZ _ _ H HZl)|]. destruct (Hn _ H) as [N _]. exact (N (HZ _ HZl)).
    + intros i i' l [H|[-> H]] [H'|[-> H']]; eauto; exfalso.
      * destruct (Hn _ H') as [N _]. exact (N (HC _ _ H)).
      * destruct (Hn _ H) as [N _]. exact (N (HC _ _ H')).
    + apply Hu.
      * intros i st p Hi. eapply ok_mono; [exact (Hch _ _ _ Hi)|auto].
      * eapply ok_mono; [apply (IH _ _ (Hch _ _ _ Hj))|].
        -- intros l H. destruct (Hn _ H) as [N1 N2]. split; [intros H'; exact (N1 (HC _ _ H'))|]. intros [H'|H']; [exact (N2 H')|exact (N1 (HZ _ H'))].
        -- intros l [H|H]; auto.
    + intros l. eapply ok_mono; [apply Hk|auto].
  - destruct Ho as (Z & C & HZ & HC & HCZ & HCC & Hch & Hk). eapply ok_mono; [|intros l H; left; exact H].
    eapply (ok_fork _ _ Z C); eauto.
  - destruct Ho as (Z & C & HZ & HC & HCZ & HCC & Hch & Hk). eapply ok_mono; [|intros l H; left; exact H].
    eapply (ok_fork _ _ Z C); eauto.
  - destruct Ho as (Z & C & HZ & HC & HCZ & HCC & Hch & Hk). eapply ok_mono; [|intros l H; left; exact H].
    eapply (ok_fork _ _ Z C); eauto.
  - destruct Ho as (Z & C & HZ & HC & HCZ & HCC & Hch & Hk). eapply ok_mono; [|intros l H; left; exact H].
    eapply (ok_fork _ _ Z C); eauto.
  - destruct Ho as (Z & C & HZ & HC & HCZ & HCC & Hch & Hk). eapply ok_mono; [apply Hk|auto].
Qed.

(** ** The runner *)
Section Runner.
  Context (k : config) (tasks : taskmap) (Hblocks : blocks_ask_own tasks).

  (** May run [n]: the global map is one's own, or is shared and nothing writes to it. *)
  Definition may (X Y : locs) (n : str) : Prop := X 0 \/ Y 0 /\ asks_own tasks n.
  Lemma may_calls (X Y : locs) n m : may X Y n -> calls tasks n m -> may X Y m.
  Proof. intros [H|[H Ha]] Hc; [left; exact H|right]. split; [exact H|]. intros x t Hr. apply Ha. econstructor; eauto. Qed.
  Lemma may_mono (X Y X' : locs) n : may X Y n -> (forall l, X l -> X' l) -> may X' Y n.
  Proof. intros [H|H] HX; [left; auto|right; exact H]. Qed.
  Lemma may_zero (X Y : locs) n : may X Y n -> X 0 \/ Y 0.
  Proof. intros [H|[H _]]; auto. Qed.

  Lemma ok_env (X Y : locs) ln vars env f : (forall m, ok X Y (f m)) -> ok X Y (interpolate_env_then k ln vars env f).
  Proof.
    intros H. unfold interpolate_env_then. case_decide; [apply H|]. apply ok_plain; [exact I|]. intros order. destruct (interpolate_env _ _ _ _); [apply H|constructor].
  Qed.
  Lemma ok_dir (X Y : locs) t pa ln d vars f : (forall d, ok X Y (f d)) -> ok X Y (resolve_dir_then k t pa ln d vars f).
  Proof.
    intros H. unfold resolve_dir_then. destruct (match _ with [] => k_dir k | _ => _ end); [apply H|]. destruct (interpolate _ _ _); [|constructor].
    apply ok_plain; [exact I|]. intros []; try constructor. apply H.
  Qed.
  Lemma ok_command (X Y : locs) c t pa l env a : X l \/ Y l -> ok X Y (execute_command k c t pa l env a).
  Proof.
    intros Hl. unfold execute_command. destruct (trim_space _); [constructor|]. apply ok_read; [exact Hl|]. intros vars. destruct (interpolate _ _ _) as [cmd|]; [|constructor].
    apply ok_env. intros cmdenv. apply ok_dir. intros d. destruct (k_dry k); [apply ok_plain; [exact I|]; intros; constructor|].
    assert (G : forall sh st, ok X Y (Vis (EOrder cmdenv) (fun order => Vis (EStart (Proc (t_name t) pa (a_scope a) cmd (command_environ (k_environ k) (a_piped a && sh) (a_nocolor a) cmdenv order) d sh st (a_ctx a) (a_out a)))
      (fun started => if started then Vis (EEnd (t_name t) pa) (fun ok => if ok then Ret None else Ret (Some (RCmdFailed (t_name t) cmd))) else Ret (Some (RCmdFailed (t_name t) cmd)))))).
    { intros. apply ok_plain; [exact I|]. intros order. apply ok_plain; [exact I|]. intros []; [|constructor]. apply ok_plain; [exact I|]. intros []; constructor. }
    destruct (is_silent _); [apply G|]. apply ok_plain; [exact I|]. intros _. apply G.
  Qed.

  Section Calls.
    Context (rt : str -> args -> prog) (Hrt : forall n a X Y, may X Y n -> ok X Y (rt n a)).

    Lemma ok_run_item (X Y : locs) it t pa l env a : X l \/ Y l -> (forall r, it = RTask r -> may X Y (r_task r)) -> ok X Y (execute_run_item k rt it t pa l env a).
    Proof.
      intros Hl Hm. destruct it as [c|r|lg|q|o items]; cbn; try constructor.
      - apply ok_command. exact Hl.
      - destruct (k_dry k); [apply ok_plain; [exact I|]; intros; constructor|]. apply Hrt, Hm. reflexivity.
      - apply Hl.
      - intros vars. destruct (interpolate _ _ _); [|constructor]. destruct (k_dry k); (apply ok_plain; [exact I|]; intros; constructor).
    Qed.

    Lemma ok_pre_deps (X Y : locs) deps seen a kk : (forall d, d ∈ deps -> may X Y d) -> (forall seen, ok X Y (kk seen)) -> ok X Y (pre_deps rt deps seen a kk).
    Proof.
      intros Hd Hk. revert seen. induction deps as [|d deps IH]; intros seen; cbn; [apply Hk|].
      assert (IH' : forall seen, ok X Y (pre_deps rt deps seen a kk)) by (apply IH; intros; apply Hd; right; assumption).
      case_decide; [apply IH'|]. apply ok_plain; [exact I|]. intros []; try apply IH'; (apply ok_then; [apply Hrt, Hd; left|apply IH']).
    Qed.
    Lemma ok_pre_resolve (X Y : locs) n items seen a : may X Y n -> (forall r, RTask r ∈ items -> calls tasks n (r_task r)) -> ok X Y (pre_resolve tasks rt items seen a).
    Proof.
      intros Hm. revert seen. induction items as [|it items IH]; intros seen Hc; cbn; [constructor|].
      assert (IH' : forall seen, ok X Y (pre_resolve tasks rt items seen a)) by (intros; apply IH; intros; apply Hc; right; assumption).
      destruct it as [c|r|lg|q|o is]; try apply IH'. destruct (tasks !! r_task r) as [t|] eqn:Et; [|constructor].
      apply ok_pre_deps; [|exact IH']. intros d Hd. eapply may_calls; [eapply may_calls; [exact Hm|apply Hc; left]|]. eapply call_dep; eauto.
    Qed.

    (** The items of a block only read. *)
    Lemma ok_block (X Y : locs) o items t pa l env c sub kk : X l -> X 0 \/ Y 0 -> (forall r, RTask r ∈ items -> asks_own tasks (r_task r)) -> (forall r, ok X Y (kk r)) ->
      ok X Y (fork k rt o items t pa l env c sub kk).
    Proof.
      intros Hl H0 Ha Hk. unfold fork. apply (ok_fork X Y (fun x => X x /\ (x = 0 \/ x = l)) (fun _ _ => False)).
      - intros x [H _]. exact H.
      - intros j x [].
      - intros j x [].
      - intros i j x [].
      - intros j st q Hj. apply list_lookup_imap_Some in Hj as (it & Hj & E). injection E as _ ->. apply ok_run_item.
        + right. right. auto.
        + intros r ->. right. split; [destruct H0 as [H0|H0]; auto|]. apply Ha. eapply elem_of_list_lookup_2. exact Hj.
      - intros log'. apply Hk.
    Qed.
    Lemma ok_parallel (X Y : locs) n t o items pa l env a : tasks !! n = Some t -> RPar o items ∈ t_run t -> may X Y n -> X l -> ok X Y (execute_parallel k tasks rt o items t pa l env a).
    Proof.
      intros Ht Ho Hm Hl. unfold execute_parallel.
      assert (Hc : forall r, RTask r ∈ items -> calls tasks n (r_task r)) by (intros r Hr; eapply call_block; eauto).
      assert (Ha : forall r, RTask r ∈ items -> asks_own tasks (r_task r)) by (intros r Hr; eapply Hblocks; eauto).
      apply ok_then; [eapply ok_pre_resolve; [exact Hm|exact Hc]|].
      assert (Hb : forall c sub kk, (forall log, ok X Y (kk log)) -> ok X Y (fork k rt o items t pa l env c sub kk)) by (intros; apply ok_block; [exact Hl|eapply may_zero; exact Hm|exact Ha|assumption]).
      destruct (k_dry k); [apply ok_plain; [exact I|]; intros; constructor|]. destruct (_ && _).
      - unfold execute_tui. cbn [a_tui].
        match goal with |- context [fork _ _ _ _ _ _ _ _ _ _ ?f] => assert (Hf : forall log, ok X Y (f log)) end.
        { intros log. destruct (is_silent _); [constructor|]. apply ok_plain; [exact I|]. intros; constructor. }
        destruct (a_tui a); [apply Hb, Hf|]. apply ok_plain; [exact I|]. intros i. apply ok_plain; [exact I|]. intros []; [apply Hb, Hf|constructor].
      - apply Hb. intros; constructor.
    Qed.

    Lemma ok_item (X Y : locs) n t it i l env a : tasks !! n = Some t -> it ∈ t_run t -> may X Y n -> X l \/ Y l -> (forall q, it = RPrompt q -> X l) ->
      ok X Y (execute_item k tasks rt it t i l env a).
    Proof.
      intros Ht Hi Hm Hl Hq.
      destruct it as [c|r|lg|q|o items]; cbn [execute_item].
      - apply ok_run_item; [exact Hl|]. discriminate.
      - apply ok_run_item; [exact Hl|]. intros r' [= <-]. eapply may_calls; [exact Hm|]. eapply call_item; eauto.
      - apply ok_run_item; [exact Hl|]. discriminate.
      - apply ok_read; [exact Hl|]. intros vars. destruct (interpolate_prompt _ _ _); [|constructor]. destruct (k_dry k); [apply ok_plain; [exact I|]; intros; constructor|].
        apply ok_plain; [exact I|]. intros [v|]; [|constructor]. apply ok_write; [exact (Hq q eq_refl)|]. intros; constructor.
      - destruct (k_dry k); [apply ok_plain; [exact I|]; intros; constructor|]. apply ok_read; [exact Hl|]. intros vars. apply ok_alloc. intros r _ _.
        eapply ok_parallel; [exact Ht|exact Hi| |right; reflexivity]. eapply may_mono; [exact Hm|auto].
    Qed.

    Lemma ok_items (X Y : locs) n t items i ex sk l env a : tasks !! n = Some t -> (forall it, it ∈ items -> it ∈ t_run t) -> may X Y n -> X l \/ Y l -> (forall q, RPrompt q ∈ items -> X l) ->
      ok X Y (execute_items k tasks rt items t i ex sk l env a).
    Proof.
      intros Ht Hi Hm Hl Hq. revert i ex sk. induction items as [|it items IH]; intros i ex sk; cbn [execute_items].
      - destruct ex, sk; constructor.
      - assert (IH' : forall i ex sk, ok X Y (execute_items k tasks rt items t i ex sk l env a)).
        { apply IH; [intros; apply Hi; right; assumption|intros q H; apply (Hq q); right; assumption]. }
        apply ok_plain; [exact I|]. intros []; [constructor|]. destruct (negb _); [apply ok_plain; [exact I|]; intros; apply IH'|].
        assert (G : ok X Y (bind (execute_item k tasks rt it t i l env a) (fun r => Vis (ERet (t_name t) [i] r) (fun _ => match r with Some e => Ret (Some e) | None => execute_items k tasks rt items t (S i) (S ex) sk l env a end)))).
        { apply ok_bind; [eapply ok_item; [exact Ht|apply Hi; left|exact Hm|exact Hl|intros q ->; apply (Hq q); left]|]. intros r. apply ok_plain; [exact I|]. intros _. destruct r; [constructor|apply IH']. }
        destruct (item_when it); [exact G|]. apply ok_read; [exact Hl|]. intros vars. destruct (evaluate _ _ _) as [[]|]; [exact G| |constructor]. apply ok_plain; [exact I|]. intros _. apply IH'.
    Qed.

    Lemma ok_task (X Y : locs) n t a : tasks !! n = Some t -> may X Y n -> ok X Y (execute_task k tasks rt t a).
    Proof.
      intros Ht Hm. unfold execute_task. destruct (t_vars t) as [vs|] eqn:Ev.
      - apply ok_plain; [exact I|]. intros order. apply ok_read; [eapply may_zero; exact Hm|]. intros globals. destruct (resolve_vars _ _ _ _) as [m|]; [|constructor].
        apply ok_alloc. intros l _ _. apply ok_env. intros env. eapply ok_items; [exact Ht|auto|eapply may_mono; [exact Hm|auto]|left; right; reflexivity|intros; right; reflexivity].
      - apply ok_read; [eapply may_zero; exact Hm|]. intros vars. apply ok_env. intros env. eapply ok_items; [exact Ht|auto|exact Hm|eapply may_zero; exact Hm|].
        intros q Hq. destruct Hm as [H|[_ H]]; [exact H|]. exfalso. exact (H n t (rtc_refl _ _) Ht Ev q Hq).
    Qed.

    Lemma ok_deps (X Y : locs) n deps a kk : (forall d, d ∈ deps -> may X Y d) -> ok X Y kk -> ok X Y (run_deps rt n deps a kk).
    Proof.
      intros Hd Hk. induction deps as [|d deps IH]; cbn; [exact Hk|]. apply ok_then; [apply Hrt, Hd; left|]. apply IH. intros; apply Hd; right; assumption.
    Qed.
  End Calls.

  Lemma ok_run_task fuel : forall n a X Y, may X Y n -> ok X Y (run_task k tasks fuel n a).
  Proof.
    induction fuel as [|fuel IH]; intros n a X Y Hm; cbn [run_task]; [constructor|]. apply ok_plain; [exact I|].
    intros []; [| |constructor]; [|apply ok_plain; [exact I|]; intros; constructor]. destruct (tasks !! n) as [t|] eqn:Et; [|constructor].
    match goal with |- ok X Y (match t_when t with [] => ?b | _ => _ end) => assert (B : ok X Y b) end.
    { assert (R : ok X Y (run_deps (run_task k tasks fuel) n (t_deps t) a
        (match t_run t with [] => Vis (EDone n) (fun _ => Ret None) | _ => and_then (execute_task k tasks (run_task k tasks fuel) t a) id (Vis (EDone n) (fun _ => Ret None)) end))).
      { apply ok_deps; [exact IH| |].
        - intros d Hd. eapply may_calls; [exact Hm|]. eapply call_dep; eauto.
        - assert (F : ok X Y (Vis (EDone n) (fun _ => Ret None))) by (apply ok_plain; [exact I|]; intros; constructor).
          destruct (t_run t) eqn:Er; [exact F|]. apply ok_then; [|exact F]. eapply ok_task; eauto. }
      destruct (_ && _); [|exact R]. apply ok_plain; [exact I|]. intros _. exact R. }
    destruct (t_when t); [exact B|]. apply ok_read; [eapply may_zero; exact Hm|]. intros globals. destruct (evaluate _ _ _) as [[]|]; [exact B| |constructor].
    apply ok_plain; [exact I|]. intros _. apply ok_plain; [exact I|]. intros; constructor.
  Qed.

  (** Every state of a run: what is owned is known. *)
  Lemma run_ok root h p : rtc (cstep (k_vars k)) ([], run_with_tasks k tasks root) (h, p) -> exists X : locs, ok X (fun _ => False) p /\ forall l, X l -> l <= allocs h.
  Proof.
    enough (G : forall s s', rtc (cstep (k_vars k)) s s' -> (exists X : locs, ok X (fun _ => False) s.2 /\ forall l, X l -> l <= allocs s.1) ->
      exists X : locs, ok X (fun _ => False) s'.2 /\ forall l, X l -> l <= allocs s'.1).
    { intros H. apply (G _ _ H). exists (fun l => l = 0). split; [apply ok_run_task; left; reflexivity|]. intros l ->. cbn. lia. }
    induction 1 as [s|s1 s2 s3 H _ IH]; [auto|]. intros (X & Ho & HX). apply IH. destruct H as [h0 p0 ev p1 Hs Ha|h0 p0 i]; cbn in *.
    - exists (fun l => X l \/ new_loc ev l). assert (N : forall l, new_loc ev l -> l = S (allocs h0)).
      { intros l Hl. destruct ev; try contradiction. cbn in Hl, Ha. congruence. }
      split; [eapply ok_step; [exact Hs|exact Ho|]|].
      + intros l Hl. split; [|intros []]. intros Hx. apply HX in Hx. apply N in Hl. lia.
      + intros l [Hl|Hl]; [apply HX in Hl; destruct ev; cbn; lia|]. pose proof (N _ Hl). destruct ev; try contradiction. cbn. lia.
    - exists X. auto.
  Qed.
End Runner.

Theorem no_race k tasks root h p : blocks_ask_own tasks -> rtc (cstep (k_vars k)) ([], run_with_tasks k tasks root) (h, p) -> ~ race p.
Proof. intros Hb H. destruct (run_ok k tasks Hb root h p H) as (X & Ho & _). eapply ok_no_race; [exact Ho|]. intros l _ []. Qed.

(** What is pending, computed. *)
Fixpoint next (p : prog) (who : list nat) : option eff :=
  match who, p with
  | [], Vis e _ => Some e
  | j :: q, Fork _ _ _ _ chs _ _ => match chs !! j with Some (Running, p1) => next p1 q | _ => None end
  | _, _ => None
  end.
Lemma next_pending who p e : next p who = Some e -> pending p who e.
Proof.
  revert p. induction who as [|j who IH]; intros [r|e' kk|t pa lim c chs log kk]; cbn; intros H; try discriminate.
  - injection H as <-. constructor.
  - destruct (chs !! j) as [[[] p1]|] eqn:E; try discriminate. econstructor; eauto.
Qed.
Definition uses_map (e : eff) : option (nat * bool) := match e with ERead _ _ l => Some (l, false) | EWrite _ _ l _ _ => Some (l, true) | _ => None end.
Lemma race_at p who1 who2 e1 e2 l b : who1 <> who2 -> next p who1 = Some e1 -> next p who2 = Some e2 -> uses_map e1 = Some (l, true) -> uses_map e2 = Some (l, b) -> race p.
Proof.
  intros Hne H1 H2 U1 U2. exists who1, who2, e1, e2, l. split; [exact Hne|]. split; [apply next_pending; exact H1|]. split; [apply next_pending; exact H2|].
  split; [destruct e1; try discriminate U1; injection U1 as <-; reflexivity|]. destruct e2; try discriminate U2; injection U2 as <- _; [right|left]; reflexivity.
Qed.
