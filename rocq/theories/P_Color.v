(** C102: switching colours off in a parallel block. *)
From Verif Require Import Base Interp_Model Cond_Model Types_Model Path_Model Run_Model Run_Spec Run_Logic Run_Inv Run_Proof Run_Facts Run_Drive P_Run P_Run_Cmd.
From Verif Require Import Label_Model Out_Model Out_Spec Out_Proof P_Out Dest_Spec Alone_Spec Alone_Proof P_Alone P_Dest.
From Verif Require Import Screen_Model Screen_Spec Screen_Proof Screen_Inv Screen_Main Screen_End P_Screen Color_Model Color_Spec.

(** ** How far it reaches *)
Lemma plain_opts tasks T t i j o items : tasks !! T = Some t -> t_run t !! i = Some (RPar o items) -> plain_item tasks (T, i, j) -> q_color o = Some false.
Proof. intros Ht Hi (t' & o' & items' & H1 & H2 & H3). simpl in H1, H2. rewrite Ht in H1. injection H1 as <-. rewrite Hi in H2. injection H2 as <- _. exact H3. Qed.
Lemma off_reached tasks root T s : reached tasks root T s -> colours_off tasks (around s) -> no_color s = true.
Proof.
  unfold colours_off. induction 1 as [|T t s d _ IH _ _|T t s i r _ IH _ _|T t s i o items j r _ IH Ht Hi _|T t s i o items r t' d _ IH _ _ _ _ _]; simpl; intros H; auto.
  - inversion H.
  - inversion H as [? ? Hp|? ? Hp]; subst; [rewrite (plain_opts _ _ _ _ _ _ _ Ht Hi Hp); reflexivity|]. rewrite (IH Hp). apply orb_true_r.
  - rewrite (IH H). apply orb_true_r.
Qed.
Lemma around_block tasks root T s : reached tasks root T s -> around s <> [] -> in_block s = true.
Proof. induction 1 as [|T t s d _ IH _ _|T t s i r _ IH _ _|T t s i o items j r _ IH Ht Hi _|T t s i o items r t' d _ IH _ _ _ _ _]; simpl; intros H; auto. Qed.

Section C102.
  Context (k : config) (tasks : taskmap) (root : str) (Hkeyed : keyed tasks).
  Notation run_of := (run_of k tasks root).
  Notation off := (colours_off tasks).

  Lemma strip_around h p : run_of h p -> forall n s T f, length s < n -> OClaim T s f ∈ h -> off (around s) -> strip_in tasks h (around s) = true.
  Proof.
    intros Hr. induction n as [|n IH]; intros s T f Hn Hc Hoff; [lia|]. pose proof (run_good k tasks root Hkeyed _ _ Hr) as Hg.
    destruct (good_in _ _ _ _ Hg Hc) as (h0 & Hs & _ & _ & [_ [Hcall _]]).
    assert (Hup : forall ev, ev ∈ h0 -> ev ∈ h) by (intros ev Hin; eapply suffix_elem; [|exact Hin]; etransitivity; [apply suffix_cons_self|exact Hs]).
    destruct s as [|[T'|T' pa r|T' pa o|T' pa] s]; simpl in Hcall.
    - inversion Hoff.
    - destruct Hcall as (t & pre & post & _ & _ & _ & _ & Hc'). simpl in *. eapply IH; [|apply Hup; exact Hc'|exact Hoff]. lia.
    - destruct Hcall as (_ & _ & _ & t & s' & Ht & Hc' & Hsc). unfold item_scope in Hsc. destruct pa as [|i [|j [|]]]; try contradiction.
      + subst s. simpl in *. eapply IH; [|apply Hup; exact Hc'|exact Hoff]. lia.
      + destruct Hsc as (o & items & Hi & ->). simpl in Hoff |- *. rewrite Ht, Hi, (scope_of_in k tasks root Hkeyed h p T' s' Hr (Hup _ Hc')).
        inversion Hoff as [? ? Hp|? ? Hp]; subst; [rewrite (plain_opts _ _ _ _ _ _ _ Ht Hi Hp); apply orb_true_r|].
        rewrite (off_reached tasks root T' s' (claim_reached k tasks root Hkeyed _ _ _ _ _ Hr (Hup _ Hc')) Hp). reflexivity.
    - contradiction.
    - destruct Hcall as (_ & o & items & r & t' & _ & _ & _ & _ & s' & Hc' & ->). simpl in *. eapply IH; [|apply Hup; exact Hc'|exact Hoff]. lia.
  Qed.
  Lemma strip_item h p T s i j : run_of h p -> OClaim T s Fresh ∈ h -> (exists t o items, tasks !! T = Some t /\ t_run t !! i = Some (RPar o items)) ->
    off ((T, i, j) :: around s) -> strip_in tasks h ((T, i, j) :: around s) = true.
  Proof.
    intros Hr Hc (t & o & items & Ht & Hi) Hoff. simpl. rewrite Ht, Hi, (scope_of_in k tasks root Hkeyed h p T s Hr Hc).
    inversion Hoff as [? ? Hp|? ? Hp]; subst; [rewrite (plain_opts _ _ _ _ _ _ _ Ht Hi Hp); apply orb_true_r|].
    rewrite (off_reached tasks root T s (claim_reached k tasks root Hkeyed _ _ _ _ _ Hr Hc) Hp). reflexivity.
  Qed.
  Lemma strip_place h p x b : run_of h p -> OStart x b ∈ h -> off (place x) -> strip_in tasks h (place x) = true.
  Proof.
    intros Hr Hx. destruct (place_eq k tasks root Hkeyed h p x b Hr Hx) as (s & Hc & -> & Hp & t & c & Ht & Hat). destruct Hp as [[i Ep]|(i & j & Ep)]; rewrite Ep in *; simpl.
    - intros Hoff. eapply strip_around; [exact Hr|apply Nat.lt_succ_diag_r|exact Hc|exact Hoff].
    - intros Hoff. apply (strip_item h p (x_task x) s i j Hr Hc); [|exact Hoff]. simpl in Hat. destruct Hat as (o & items & Hi & _). eauto.
  Qed.

  (** ** Elsewhere they are kept *)
  (** No block on the way has [color: false]. *)
  Definition bright (s : scope) : Prop := forall T pa o, FBlock T pa o ∈ s -> q_color o <> Some false.
  Lemma bright_up f s : bright (f :: s) -> bright s.
  Proof. intros H T pa o Hin. eapply H. right. exact Hin. Qed.
  Lemma bright_color s : bright s -> no_color s = false.
  Proof.
    induction s as [|f s IH]; intros H; [reflexivity|]. specialize (IH (bright_up _ _ H)). destruct f as [T'|T' pa r|T' pa o|T' pa]; simpl; try exact IH.
    rewrite IH. pose proof (H T' pa o ltac:(left)) as Ho. destruct (q_color o) as [[]|]; [reflexivity|congruence|reflexivity].
  Qed.
  Lemma bright_item h p T s i j o : run_of h p -> OClaim T s Fresh ∈ h -> (forall t items, tasks !! T = Some t -> forall o', t_run t !! i = Some (RPar o' items) -> o' = o) -> bright (FBlock T [i] o :: s) ->
    strip_in tasks h ((T, i, j) :: around s) = false.
  Proof.
    intros Hr Hc Ho Hb. simpl. destruct (tasks !! T) as [t|] eqn:Et; [|reflexivity]. destruct (t_run t !! i) as [it|] eqn:Ei; [|reflexivity]. destruct it as [| | | |o' items] eqn:Eit; try reflexivity.
    rewrite (scope_of_in k tasks root Hkeyed h p T s Hr Hc). rewrite (bright_color _ (bright_up _ _ Hb)). rewrite (Ho t items eq_refl o' Ei).
    pose proof (Hb T [i] o ltac:(left)) as Hq. destruct (q_color o) as [[]|]; [reflexivity|congruence|reflexivity].
  Qed.

  (** ** The commands are told *)
  Lemma scope_off h p x b : run_of h p -> OStart x b ∈ h -> off (place x) -> in_block (x_scope x) = true /\ no_color (x_scope x) = true.
  Proof.
    intros Hr Hx Hoff. pose proof (run_good k tasks root Hkeyed _ _ Hr) as Hg. destruct (good_in _ _ _ _ Hg Hx) as (h0 & Hs & _ & _ & [_ HB]).
    destruct (st_what _ _ _ _ HB) as (t & c & s & vars & te & ce & o & Ht & _ & Hc & Hsc & _).
    assert (Hre : reached tasks root (x_task x) s) by (eapply (claim_reached k tasks root Hkeyed); [exact Hr|eapply suffix_elem; [|exact Hc]; etransitivity; [apply suffix_cons_self|exact Hs]]).
    unfold place, item_around in Hoff. unfold item_scope in Hsc. destruct (x_path x) as [|i [|j [|]]] eqn:Ep; try contradiction.
    - rewrite Hsc in *. split; [|eapply off_reached; eassumption]. eapply around_block; [exact Hre|]. intros E. rewrite E in Hoff. inversion Hoff.
    - destruct Hsc as (o' & items & Hi & E). rewrite E in *. simpl in *. split; [reflexivity|].
      inversion Hoff as [? ? Hp|? ? Hp]; subst; [rewrite (plain_opts _ _ _ _ _ _ _ Ht Hi Hp); reflexivity|]. rewrite (off_reached _ _ _ _ Hre Hp). apply orb_true_r.
  Qed.
  (** A command inside a block with [color: false], however deep, is asked not to use
      colours, unless the Babfile sets these variables itself. *)
  Theorem C102_told h p x b past : run_of h p -> happened h (OStart x b) past -> off (place x) -> x_show x = true ->
    exists t c, tasks !! x_task x = Some t /\ item_at t (x_path x) (RCmd c) /\
      (env_names (k_env k) -> env_names (t_env t) -> env_names (c_env c) -> forall n v, (n, v) ∈ [(lit "NO_COLOR", lit "1"); (lit "TERM", lit "dumb")] ->
       smap_get (c_env c) !! n = None -> smap_get (t_env t) !! n = None -> smap_get (k_env k) !! n = None -> process_sees (x_environ x) n (Some v)).
  Proof.
    intros Hr Hh Hoff Hshow.
    assert (Hx : OStart x b ∈ h) by (eapply suffix_elem; [exact Hh|left]). destruct (scope_off h p x b Hr Hx Hoff) as [Hb Hc].
    destruct (C33_environment_precedence_partial k tasks root Hkeyed h p x b past Hr Hh) as (t & c & v0 & vs & Ht & Hat & _ & _ & H). exists t, c. split; [exact Ht|]. split; [exact Hat|].
    intros N1 N2 N3 n v Hin E1 E2 E3.
    assert (Hn : env_name n) by (apply elem_of_list_In in Hin; destruct Hin as [E|[E|[]]]; injection E as <- _; apply (bool_decide_unpack _); vm_compute; exact I).
    specialize (H N1 N2 N3 n Hn). rewrite E1, E2, E3, Hb, Hc, Hshow in H.
    apply elem_of_list_In in Hin. destruct Hin as [E|[E|[]]]; injection E as <- <-; exact H.
  Qed.

  (** One in blocks none of which has it is asked to use them, and the rest is as it was. *)
  Lemma placed_block h p x b : run_of h p -> OStart x b ∈ h -> place x <> [] -> in_block (x_scope x) = true.
  Proof.
    intros Hr Hx Hw. pose proof (run_good k tasks root Hkeyed _ _ Hr) as Hg. destruct (good_in _ _ _ _ Hg Hx) as (h0 & Hs & _ & _ & [_ HB]).
    destruct (st_what _ _ _ _ HB) as (t & c & s & vars & te & ce & o & Ht & _ & Hc & Hsc & _).
    assert (Hre : reached tasks root (x_task x) s) by (eapply (claim_reached k tasks root Hkeyed); [exact Hr|eapply suffix_elem; [|exact Hc]; etransitivity; [apply suffix_cons_self|exact Hs]]).
    unfold place, item_around in Hw. unfold item_scope in Hsc. destruct (x_path x) as [|i [|j [|]]] eqn:Ep; try contradiction.
    - rewrite Hsc in *. eapply around_block; [exact Hre|exact Hw].
    - destruct Hsc as (o' & items & Hi & E). rewrite E. reflexivity.
  Qed.
  Theorem C102_asked h p x b past : run_of h p -> happened h (OStart x b) past -> place x <> [] -> bright (x_scope x) -> x_show x = true ->
    exists t c, tasks !! x_task x = Some t /\ item_at t (x_path x) (RCmd c) /\
      (env_names (k_env k) -> env_names (t_env t) -> env_names (c_env c) -> forall n, env_name n ->
       smap_get (c_env c) !! n = None -> smap_get (t_env t) !! n = None -> smap_get (k_env k) !! n = None ->
       if decide (n = lit "FORCE_COLOR") then process_sees (x_environ x) n (Some (lit "1")) else forall v, process_sees (x_environ x) n v <-> process_sees (k_environ k) n v).
  Proof.
    intros Hr Hh Hw Hc Hshow. assert (Hx : OStart x b ∈ h) by (eapply suffix_elem; [exact Hh|left]). pose proof (placed_block h p x b Hr Hx Hw) as Hb. apply bright_color in Hc.
    destruct (C33_environment_precedence_partial k tasks root Hkeyed h p x b past Hr Hh) as (t & c & v0 & vs & Ht & Hat & _ & _ & H). exists t, c. split; [exact Ht|]. split; [exact Hat|].
    intros N1 N2 N3 n Hn E1 E2 E3. specialize (H N1 N2 N3 n Hn). rewrite E1, E2, E3, Hb, Hc, Hshow in H.
    change (hint (true && true) false n) with (if decide (n = lit "FORCE_COLOR") then Some (lit "1") else None) in H. destruct (decide (n = lit "FORCE_COLOR")) as [D|D]; exact H.
  Qed.

  (** Not only inside of its items: the tasks the items of such a block depend on run before
      it, and commands in blocks of those are told the same. So which of the two a command
      in a block is told depends on the blocks on the way to it, and on nothing else. *)
  Lemma dark_color s T pa o : FBlock T pa o ∈ s -> q_color o = Some false -> no_color s = true.
  Proof.
    induction s as [|f s IH]; intros H Ho; [inversion H|]. apply elem_of_cons in H as [<-|H]; [simpl; rewrite Ho; reflexivity|]. specialize (IH H Ho).
    destruct f; simpl; rewrite ?IH; auto using orb_true_r.
  Qed.
  Theorem C102_told_before h p x b past T pa o : run_of h p -> happened h (OStart x b) past -> place x <> [] -> FBlock T pa o ∈ x_scope x -> q_color o = Some false -> x_show x = true ->
    exists t c, tasks !! x_task x = Some t /\ item_at t (x_path x) (RCmd c) /\
      (env_names (k_env k) -> env_names (t_env t) -> env_names (c_env c) -> forall n, env_name n ->
       smap_get (c_env c) !! n = None -> smap_get (t_env t) !! n = None -> smap_get (k_env k) !! n = None ->
       if decide (n = lit "TERM") then process_sees (x_environ x) n (Some (lit "dumb"))
       else if decide (n = lit "NO_COLOR") then process_sees (x_environ x) n (Some (lit "1"))
       else forall v, process_sees (x_environ x) n v <-> process_sees (k_environ k) n v).
  Proof.
    intros Hr Hh Hw Hf Ho Hshow. assert (Hx : OStart x b ∈ h) by (eapply suffix_elem; [exact Hh|left]). pose proof (placed_block h p x b Hr Hx Hw) as Hb.
    pose proof (dark_color _ _ _ _ Hf Ho) as Hc.
    destruct (C33_environment_precedence_partial k tasks root Hkeyed h p x b past Hr Hh) as (t & c & v0 & vs & Ht & Hat & _ & _ & H). exists t, c. split; [exact Ht|]. split; [exact Hat|].
    intros N1 N2 N3 n Hn E1 E2 E3. specialize (H N1 N2 N3 n Hn). rewrite E1, E2, E3, Hb, Hc, Hshow in H.
    change (hint (true && true) true n) with (if decide (n = lit "TERM") then Some (lit "dumb") else if decide (n = lit "NO_COLOR") then Some (lit "1") else None) in H.
    destruct (decide (n = lit "TERM")) as [D|D]; [exact H|]. destruct (decide (n = lit "NO_COLOR")) as [D'|D']; exact H.
  Qed.

  (** ** The colours they use anyway are not shown *)
  Context (a : ansi_lib) (style : nat -> str -> str) (says : event -> list str).
  Context (Hstyle : forall j l, nl ∉ l -> nl ∉ style j l).
  Context (Hlabels : forall T t i o items j, tasks !! T = Some t -> t_run t !! i = Some (RPar o items) -> nl ∉ item_label o items j).
  Context (Hstrip : forall s, nl ∉ s -> nl ∉ a_strip a s).
  Context (Hsays : forall ev, Forall (fun l => nl ∉ l) (says ev)).

  Lemma shown_plain l : cr ∉ l -> shown a true l = a_strip a l.
  Proof. intros H. exact (proj2 (C39_after_last_return_partial a true [] l H)). Qed.
  Lemma carried_same strip w l l' t : carried a tasks style strip w l t -> strip w = true -> w <> [] -> cr ∉ l -> cr ∉ l' -> a_strip a l' = a_strip a l -> carried a tasks style strip w l' t.
  Proof.
    intros H Hs Hw Hc Hc' E. inversion H as [|it w' l0 pre out Hp Hrest]; subst; [contradiction|]. apply carried_item with pre; [exact Hp|].
    rewrite Hs in *. rewrite (shown_plain l' Hc'), E, <- (shown_plain l Hc). exact Hrest.
  Qed.
  (** What the terminal shows of a command inside such a block does not depend on the
      escape sequences it writes: another line with the same text would look the same. *)
  Theorem C102_same_text h r c o s : xrun a tasks style (strip_in tasks h) says k root (h, Ret r, c, o) -> tidy h o ->
    exists log texts, sc_tty c s = typed texts /\ Forall (from h s) log /\
      (forall x, OStart x true ∈ h -> lines (wrote (x_task x) (x_path x) s o) (by_command (x_task x) (x_path x) log)) /\
      Forall2 (fun e t => carried a tasks style (strip_in tasks h) (e_in e) (e_text e) t /\
        (forall T pa, e_by e = ByCommand T pa -> off (e_in e) -> cr ∉ e_text e ->
         forall l, cr ∉ l -> a_strip a l = a_strip a (e_text e) -> carried a tasks style (strip_in tasks h) (e_in e) l t)) log texts.
  Proof.
    intros Hx Ht. destruct (xrun_inv k tasks root Hkeyed a style (strip_in tasks h) says (prefix_flat tasks style Hstyle Hlabels) (shown_flat a Hstrip) Hsays _ Hx) as [Hr _]. simpl in Hr.
    destruct (C97_finished k tasks root Hkeyed a style (strip_in tasks h) says Hstyle Hlabels Hstrip Hsays h r c o s Hx Ht) as (log & texts & H1 & H2 & H3 & H4 & _).
    exists log, texts. split; [exact H1|]. split; [exact H3|]. split; [exact H4|].
    assert (Hboth : Forall2 (fun e t => from h s e /\ carried a tasks style (strip_in tasks h) (e_in e) (e_text e) t) log texts).
    { clear -H2 H3. induction H2 as [|e t log texts He _ IH]; [constructor|]. inversion H3; subst. constructor; auto. }
    eapply Forall2_impl; [exact Hboth|]. intros e t [Hf He]. split; [exact He|]. intros T pa Eby Hoff Hcr l Hl E.
    unfold from in Hf. rewrite Eby in Hf. destruct Hf as (x & Hin & _ & _ & Ein). rewrite Ein in *.
    eapply carried_same; [exact He|eapply strip_place; eassumption| |exact Hcr|exact Hl|exact E]. intros E0. rewrite E0 in Hoff. inversion Hoff.
  Qed.
  (** If the outermost block has it, its own label is all that can have an escape
      sequence, also in the lines of blocks inside of it; [a_strip] leaves none. *)
  Theorem C102_plain h w it l t : (forall s, esc ∉ a_strip a s) -> plain_item tasks it -> carried a tasks style (strip_in tasks h) (w ++ [it]) l t ->
    exists pre rest, labelled tasks style it pre /\ t = pre ++ rest /\ esc ∉ rest.
  Proof.
    intros Hesc (t0 & o & items & Ht & Hi & Ho). revert l. induction w as [|it' w IH]; simpl; intros l H; inversion H as [|? ? ? pre out Hp Hrest]; subst; [|eapply IH; exact Hrest].
    inversion Hrest; subst. eexists pre, _. split; [exact Hp|]. split; [reflexivity|].
    assert (E : strip_in tasks h [it] = true); [|rewrite E; apply Hesc]. destruct it as [[T i] j]. simpl in *. rewrite Ht, Hi, Ho. apply orb_true_r.
  Qed.
  (** If no block on the way to a command has it, nothing is removed from its lines. *)
  Lemma carried_bright h p : run_of h p -> forall n s T f l t, length s < n -> OClaim T s f ∈ h -> bright s ->
    carried a tasks style (strip_in tasks h) (around s) l t -> carried a tasks style (fun _ => false) (around s) l t.
  Proof.
    intros Hr. induction n as [|n IH]; intros s T f l t0 Hn Hc Hb H; [lia|]. pose proof (run_good k tasks root Hkeyed _ _ Hr) as Hg.
    destruct (good_in _ _ _ _ Hg Hc) as (h0 & Hs & _ & _ & [_ [Hcall _]]).
    assert (Hup : forall ev, ev ∈ h0 -> ev ∈ h) by (intros ev Hin; eapply suffix_elem; [|exact Hin]; etransitivity; [apply suffix_cons_self|exact Hs]).
    destruct s as [|[T'|T' pa r|T' pa o|T' pa] s]; simpl in Hcall.
    - inversion H; subst. constructor.
    - destruct Hcall as (t & pre & post & _ & _ & _ & _ & Hc'). simpl in *. eapply IH; [|apply Hup; exact Hc'|eapply bright_up; exact Hb|exact H]. lia.
    - destruct Hcall as (_ & _ & _ & t & s' & Ht & Hc' & Hsc). unfold item_scope in Hsc. destruct pa as [|i [|j [|]]]; try contradiction.
      + subst s. simpl in *. eapply IH; [|apply Hup; exact Hc'|eapply bright_up; exact Hb|exact H]. lia.
      + destruct Hsc as (o & items & Hi & ->). cbn [around] in H |- *. apply bright_up in Hb.
        assert (E : strip_in tasks h ((T', i, j) :: around s') = false).
        { eapply (bright_item h p T' s' i j o Hr (Hup _ Hc')); [|exact Hb]. intros t1 items1 Et o1 Eo. rewrite Ht in Et. injection Et as <-. rewrite Hi in Eo. injection Eo as <- _. reflexivity. }
        inversion H as [|it w' l0 pre out Hp Hrest]; subst. rewrite E in Hrest. apply carried_item with pre; [exact Hp|].
        eapply IH; [|apply Hup; exact Hc'|eapply bright_up; exact Hb|exact Hrest]. simpl in Hn. lia.
    - contradiction.
    - destruct Hcall as (_ & o & items & r & t' & _ & _ & _ & _ & s' & Hc' & ->). simpl in *. eapply IH; [|apply Hup; exact Hc'|eapply bright_up; eapply bright_up; exact Hb|exact H]. lia.
  Qed.
  Theorem C102_kept h p x b l t : run_of h p -> OStart x b ∈ h -> bright (x_scope x) ->
    carried a tasks style (strip_in tasks h) (place x) l t -> carried a tasks style (fun _ => false) (place x) l t.
  Proof.
    intros Hr Hx Hb. pose proof (run_good k tasks root Hkeyed _ _ Hr) as Hg. destruct (good_in _ _ _ _ Hg Hx) as (h0 & Hs & _ & _ & [_ HB]).
    destruct (st_what _ _ _ _ HB) as (t' & c & s & vars & te & ce & o & Ht & _ & Hc & Hsc & _).
    assert (Hc' : OClaim (x_task x) s Fresh ∈ h) by (eapply suffix_elem; [|exact Hc]; etransitivity; [apply suffix_cons_self|exact Hs]).
    unfold place, item_around. unfold item_scope in Hsc. destruct (x_path x) as [|i [|j [|]]] eqn:Ep; try contradiction.
    - rewrite Hsc in *. eapply carried_bright; [exact Hr|apply Nat.lt_succ_diag_r|exact Hc'|exact Hb].
    - destruct Hsc as (o' & items & Hi & E). rewrite E in *. cbn [around]. intros H.
      assert (Ef : strip_in tasks h ((x_task x, i, j) :: around s) = false).
      { eapply (bright_item h p (x_task x) s i j o' Hr Hc'); [|exact Hb]. intros t1 items1 Et o1 Eo. rewrite Ht in Et. injection Et as <-. rewrite Hi in Eo. injection Eo as <- _. reflexivity. }
      inversion H as [|it w' l0 pre out Hp Hrest]; subst. rewrite Ef in Hrest. apply carried_item with pre; [exact Hp|].
      eapply carried_bright; [exact Hr|apply Nat.lt_succ_diag_r|exact Hc'|eapply bright_up; exact Hb|exact Hrest].
  Qed.
End C102.
Print Assumptions C102_told. Print Assumptions C102_same_text. Print Assumptions C102_plain. Print Assumptions C102_kept. Print Assumptions C102_asked. Print Assumptions C102_told_before.

(** ** A concrete run *)
(** A stand-in for the library: an escape sequence ends with the letter m. *)
Fixpoint unstyle (inside : bool) (s : str) : str :=
  match s with
  | [] => []
  | c :: r => if inside then unstyle (negb (bool_decide (c = "m"%char))) r
              else if decide (c = esc) then unstyle true r else c :: unstyle false r
  end.
Definition style_lib : ansi_lib := AnsiLib (fun s => [(PText, s)]) (unstyle false).
Lemma unstyle_sub c b s : c ∈ unstyle b s -> c ∈ s /\ c <> esc.
Proof.
  revert b. induction s as [|x s IH]; intros b H; [inversion H|]. simpl in H. destruct b; [destruct (IH _ H); split; [right; assumption|assumption]|].
  destruct (decide (x = esc)) as [|Hx]; [destruct (IH _ H); split; [right; assumption|assumption]|]. apply elem_of_cons in H as [->|H]; [split; [left|exact Hx]|].
  destruct (IH _ H). split; [right; assumption|assumption].
Qed.
Definition red (s : string) : str := esc :: lit "[31m" ++ lit s ++ esc :: lit "[0m".
(** A block without colours whose second item is a task with a block of its own, which
    says nothing about colours. *)
Definition dark_tasks : taskmap :=
  tm [mk "all" None [] [cmd "first"; RPar (ParOpts 1 [] [] 0 (Some false) None None [] []) [cmd "make"; ref "sub"]]; mk "sub" None [] [par 0 [cmd "left"; cmd "right"]]].
Lemma xplay_xrun a tasks style strip says k root l :
  xrun a tasks style strip says k root (xplay a tasks style strip says (k_vars k) l ([], run_with_tasks k tasks root, blank, [])).
Proof. apply xplay_run. Qed.
Definition dark_acts : list xact :=
  [Play [Go [] 8 fine]; Say "first" SOut (red "hello" ++ [nl]); Play [Go [] 40 fine; Do [] (MSlot 0); Go [0] 4 fine; Do [] (MSlot 1)]; Say "make" SOut (red "made" ++ [nl]);
   Play [Go [1] 40 fine; Do [1] (MSlot 0); Go [1; 0] 4 fine; Do [1] (MSlot 1); Go [1; 1] 4 fine]; Say "right" SOut (red "fine" ++ [nl]);
   Play [Go [0] 40 fine; Go [1; 0] 40 fine; Go [1; 1] 40 fine; Do [1] (MReturn 0); Do [1] (MReturn 1); Do [1] (MFree 0); Do [1] (MFree 1); Do [1] MJoin; Go [1] 40 fine;
         Do [] (MReturn 0); Do [] (MReturn 1); Do [] (MFree 0); Do [] (MFree 1); Do [] MJoin; Go [] 40 fine]].
Definition dark_run (strip : spot -> bool) :=
  xplay style_lib dark_tasks plain_style strip (fun _ => []) (k_vars (conf false)) dark_acts ([], run_with_tasks (conf false) dark_tasks (lit "all"), blank, []).
Lemma dark_runs strip : xrun style_lib dark_tasks plain_style strip (fun _ => []) (conf false) (lit "all") (dark_run strip).
Proof. exact (xplay_xrun style_lib dark_tasks plain_style strip (fun _ => []) (conf false) (lit "all") dark_acts). Qed.
Definition dark_hist : hist := (dark_run (fun _ => false)).1.1.1.
Definition dark := dark_run (strip_in dark_tasks dark_hist).
Example C102_met : keyed dark_tasks /\ xrun style_lib dark_tasks plain_style (strip_in dark_tasks dark_hist) (fun _ => []) (conf false) (lit "all") dark /\
  dark.1.1.1 = dark_hist /\ dark.1.1.2 = Ret None /\ tidy dark.1.1.1 dark.2 /\
  (forall s, esc ∉ a_strip style_lib s) /\ (forall s, nl ∉ s -> nl ∉ a_strip style_lib s) /\
  (forall T t i o items j, dark_tasks !! T = Some t -> t_run t !! i = Some (RPar o items) -> nl ∉ item_label o items j) /\
  colours_off dark_tasks [(lit "sub", 0, 1); (lit "all", 1, 1)] /\
  sc_tty dark.1.2 SOut = red "hello" ++ [nl] ++ nlit "[make] made" ++ nlit "[sub ] [right] fine".
Proof.
  split; [apply keyed_by; vm_compute; reflexivity|]. split; [apply dark_runs|]. split; [vm_compute; reflexivity|]. split; [vm_compute; reflexivity|].
  split; [apply tidyb_sound; vm_compute; reflexivity|]. split; [intros s H; destruct (unstyle_sub _ _ _ H); auto|]. split; [intros s Hn H; destruct (unstyle_sub _ _ _ H); auto|].
  split; [apply flat_labels; vm_compute; reflexivity|]. split; [|vm_compute; reflexivity].
  apply Exists_cons. right. apply Exists_cons. left.
  exists (mk "all" None [] [cmd "first"; RPar (ParOpts 1 [] [] 0 (Some false) None None [] []) [cmd "make"; ref "sub"]]), (ParOpts 1 [] [] 0 (Some false) None None [] []), [cmd "make"; ref "sub"].
  split; [vm_compute; reflexivity|]. split; [vm_compute; reflexivity|]. reflexivity.
Qed.
(** In the run of C97_met no block has [color: false]: the command right, which is in two
    blocks, keeps its colours. *)
Example C102_kept_met : forall x b, OStart x b ∈ mixed.1.1.1 -> x_cmd x = lit "right" -> place x = [(lit "sub", 0, 1); (lit "all", 1, 1)] /\ bright (x_scope x).
Proof.
  assert (H : forallb (fun ev => match ev with
    | OStart x _ => negb (bool_decide (x_cmd x = lit "right")) ||
        (bool_decide (place x = [(lit "sub", 0, 1); (lit "all", 1, 1)]) && forallb (fun f => match f with FBlock _ _ o => bool_decide (q_color o <> Some false) | _ => true end) (x_scope x))
    | _ => true end) mixed.1.1.1 = true) by (vm_compute; reflexivity).
  intros x b Hin Ex. rewrite forallb_forall in H. specialize (H _ (proj1 (elem_of_list_In _ _) Hin)). simpl in H. rewrite bool_decide_eq_true_2 in H by exact Ex. simpl in H.
  apply andb_prop in H as [H1 H2]. apply bool_decide_eq_true_1 in H1. split; [exact H1|]. intros T pa o Ho. rewrite forallb_forall in H2.
  specialize (H2 _ (proj1 (elem_of_list_In _ _) Ho)). simpl in H2. apply bool_decide_eq_true_1 in H2. exact H2.
Qed.
Example C102_kept_there : existsb (fun ev => match ev with OStart x true => bool_decide (x_cmd x = lit "right") | _ => false end) mixed.1.1.1 = true.
Proof. vm_compute. reflexivity. Qed.
(** A block without colours one of whose items depends on a task with a block of its own,
    which is not inside of it: that one's commands are told too. *)
Definition early_tasks : taskmap :=
  tm [mk "all" None [] [RPar (ParOpts 1 [] [] 0 (Some false) None None [] []) [cmd "make"; ref "sub"]]; mk "sub" None ["pre"%string] [cmd "last"]; mk "pre" None [] [par 0 [cmd "left"; cmd "right"]]].
Definition early_hist : hist :=
  (xplay style_lib early_tasks plain_style (fun _ => false) (fun _ => []) (k_vars (conf false)) [Play [Go [] 40 fine; Do [] (MSlot 0); Go [0] 4 fine]] ([], run_with_tasks (conf false) early_tasks (lit "all"), blank, [])).1.1.1.
Example C102_told_before_met : existsb (fun ev => match ev with
    | OStart x true => bool_decide (x_cmd x = lit "left") && x_show x && bool_decide (place x = [(lit "pre", 0, 0)]) &&
        existsb (fun f => match f with FBlock T _ o => bool_decide (T = lit "all") && bool_decide (q_color o = Some false) | _ => false end) (x_scope x)
    | _ => false end) early_hist = true.
Proof. vm_compute. reflexivity. Qed.
