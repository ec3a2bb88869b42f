(** The writers and the schedule together. *)
From Verif Require Import Base Interp_Model Cond_Model Types_Model Path_Model Run_Model Run_Spec Run_Logic Run_Inv Run_Proof Run_Facts P_Run P_Run_Cmd.
From Verif Require Import Label_Model Out_Model Out_Spec Out_Proof Dest_Spec Alone_Spec Alone_Proof P_Alone Screen_Model Screen_Spec Screen_Proof.

(** ** Commands whose line may be unfinished *)
Definition opened (h : hist) (x : proc_info) : Prop :=
  ~ ended h x \/ exists i j, x_path x = [i; j] /\ forall r, OReturn (x_task x) [i] j r ∉ h.
Lemma in_dec (P : event -> Prop) (f : event -> bool) (h : hist) : (forall ev, f ev = true <-> P ev) -> (exists ev, P ev /\ ev ∈ h) \/ (forall ev, P ev -> ev ∉ h).
Proof.
  intros Hf. destruct (existsb f h) eqn:E.
  - left. apply existsb_exists in E as (ev & H1 & H2). exists ev. split; [apply Hf; exact H2|apply elem_of_list_In; exact H1].
  - right. intros ev Hp Hin. assert (existsb f h = true); [|congruence]. apply existsb_exists. exists ev. split; [apply elem_of_list_In; exact Hin|apply Hf; exact Hp].
Qed.
Lemma ended_dec h x : ended h x \/ ~ ended h x.
Proof.
  destruct (in_dec (fun ev => exists ok, ev = OEnd (x_task x) (x_path x) ok) (fun ev => match ev with OEnd T pa _ => bool_decide (T = x_task x) && bool_decide (pa = x_path x) | _ => false end) h) as [(ev & [ok ->] & H)|H].
  - intros ev. split; [destruct ev; try discriminate; intros H; apply andb_prop in H as [H1 H2]; apply bool_decide_eq_true_1 in H1, H2; subst; eauto|].
    intros [ok ->]. rewrite !bool_decide_eq_true_2 by reflexivity. reflexivity.
  - left. exists ok. exact H.
  - right. intros [ok Hin]. apply (H (OEnd (x_task x) (x_path x) ok)); [eauto|exact Hin].
Qed.
Lemma returned_dec (h : hist) T i j : (exists r, OReturn T [i] j r ∈ h) \/ forall r, OReturn T [i] j r ∉ h.
Proof.
  destruct (in_dec (fun ev => exists r, ev = OReturn T [i] j r) (fun ev => match ev with OReturn T' pa j' _ => bool_decide (T' = T) && bool_decide (pa = [i]) && bool_decide (j' = j) | _ => false end) h) as [(ev & [r ->] & H)|H].
  - intros ev. split; [destruct ev; try discriminate; intros H; apply andb_prop in H as [H H3]; apply andb_prop in H as [H1 H2]; apply bool_decide_eq_true_1 in H1, H2, H3; subst; eauto|].
    intros [r ->]. rewrite !bool_decide_eq_true_2 by reflexivity. reflexivity.
  - left. eauto.
  - right. intros r Hin. apply (H (OReturn T [i] j r)); [eauto|exact Hin].
Qed.

Section Facts.
  Context (k : config) (tasks : taskmap) (root : str) (Hkeyed : keyed tasks).
  Notation run_of := (run_of k tasks root).

  Lemma around_ref T s : reached tasks root T s -> forall T' i j, (T', i, j) ∈ around s ->
    exists t o items r, tasks !! T' = Some t /\ t_run t !! i = Some (RPar o items) /\ items !! j = Some (RTask r).
  Proof.
    induction 1 as [|T t s d _ IH _ _|T t s i r _ IH _ _|T t s i o items j r _ IH Ht Hi Hj|T t s i o items r t' d _ IH _ _ _ _ _]; intros T' i' j' Hin; simpl in Hin; eauto.
    - apply elem_of_nil in Hin. destruct Hin.
    - apply elem_of_cons in Hin as [[= -> -> ->]|Hin]; [|eauto]. exists t, o, items, r. auto.
  Qed.
  Lemma place_eq h p x b : run_of h p -> OStart x b ∈ h -> exists s, OClaim (x_task x) s Fresh ∈ h /\ place x = item_around (x_task x) (x_path x) s /\
    ((exists i, x_path x = [i]) \/ (exists i j, x_path x = [i; j])) /\ exists t c, tasks !! x_task x = Some t /\ item_at t (x_path x) (RCmd c).
  Proof.
    intros Hr Hin. pose proof (run_good k tasks root Hkeyed _ _ Hr) as Hg. destruct (good_in _ _ _ _ Hg Hin) as (h0 & Hs & _ & _ & [_ HB]).
    destruct (st_what _ _ _ _ HB) as (t & c & s & vars & te & ce & o & Ht & (t' & Ht' & Hi & _) & Hc & Hsc & _). rewrite Ht in Ht'. injection Ht' as <-.
    exists s. split; [eapply suffix_elem; [|exact Hc]; etransitivity; [apply suffix_cons_self|exact Hs]|].
    unfold place, item_around. unfold item_scope in Hsc. destruct (x_path x) as [|i0 [|j0 [|]]] eqn:Ep; try contradiction.
    - subst. split; [reflexivity|]. split; [eauto|]. exists t, c. auto.
    - destruct Hsc as (o' & items & Ho & E). rewrite E. split; [reflexivity|]. split; [eauto|]. exists t, c. auto.
  Qed.
  Lemma claim_reached h p T s f : run_of h p -> OClaim T s f ∈ h -> reached tasks root T s.
  Proof. intros Hr Hin. pose proof (run_good k tasks root Hkeyed _ _ Hr) as Hg. destruct (good_in _ _ _ _ Hg Hin) as (h0 & _ & _ & _ & [_ [_ H]]). exact H. Qed.
  (** A command that is an item of a block is not a task that is one. *)
  Lemma direct_ref h p x b i j T s : run_of h p -> OStart x b ∈ h -> x_path x = [i; j] -> OClaim T s Fresh ∈ h -> (x_task x, i, j) ∉ around s.
  Proof.
    intros Hr Hx Ep Hc Hin. destruct (around_ref T s (claim_reached _ _ _ _ _ Hr Hc) _ _ _ Hin) as (t & o & items & r & Ht & Hi & Hj).
    destruct (place_eq h p x b Hr Hx) as (_ & _ & _ & _ & t' & c & Ht' & Ha). rewrite Ht in Ht'. injection Ht' as <-. rewrite Ep in Ha. simpl in Ha. destruct Ha as (o' & items' & Ho & Hj').
    rewrite Hi in Ho. injection Ho as <- <-. congruence.
  Qed.
  Lemma start_same h p x y : run_of h p -> OStart x true ∈ h -> OStart y true ∈ h -> x_task x = x_task y -> x_path x = x_path y -> x = y.
  Proof.
    intros Hr Hx Hy E1 E2. pose proof (run_good k tasks root Hkeyed _ _ Hr) as Hg.
    destruct (in_order _ _ _ Hx Hy) as [E|[(h2 & H1 & H2)|(h2 & H1 & H2)]]; [congruence| |]; exfalso; pose proof (good_suffix _ _ _ _ H1 Hg) as Hg2.
    - apply (act_once k tasks root _ _ (OStart y true) (x_task x) (x_path x) Hg2); [reflexivity|simpl; congruence|exact H2].
    - apply (act_once k tasks root _ _ (OStart x true) (x_task x) (x_path x) Hg2); [simpl; congruence|reflexivity|exact H2].
  Qed.
  Lemma during_now h x ev : OStart x true ∈ h -> ~ ended h x -> during (ev :: h) x ev.
  Proof.
    intros Hx He. apply elem_of_list_split in Hx as (h2 & h1 & ->). exists [], h2, h1. split; [reflexivity|].
    intros ok Hok. apply He. exists ok. apply elem_of_app. left. exact Hok.
  Qed.
  Lemma during_then h ev h2 x : ev :: h2 `suffix_of` h -> OStart x true ∈ h2 -> ~ ended h x -> during h x ev.
  Proof.
    intros [h3 ->] Hx He. apply elem_of_list_split in Hx as (h' & h1 & ->). exists h3, h', h1. split; [reflexivity|].
    intros ok Hok. apply He. exists ok. rewrite elem_of_app, elem_of_cons, elem_of_app. auto.
  Qed.

  (** The last item on the way to something, compared with a command that is an item. *)
  Lemma inside_direct h p x b i j T pa s l : run_of h p -> OStart x b ∈ h -> x_path x = [i; j] -> OClaim T s Fresh ∈ h ->
    item_around T pa s = l ++ place x -> l = [] /\ T = x_task x /\ pa = [i; j].
  Proof.
    intros Hr Hx Ep Hc E. destruct (place_eq h p x b Hr Hx) as (s0 & _ & E0 & _). rewrite Ep in E0. simpl in E0. rewrite E0 in E.
    pose proof (direct_ref h p x b i j T s Hr Hx Ep Hc) as Hn.
    assert (Ha : forall l', around s = l' ++ (x_task x, i, j) :: around s0 -> False).
    { intros l' E'. apply Hn. rewrite E'. apply elem_of_app. right. left. }
    unfold item_around in E. destruct pa as [|i' [|j' [|]]]; try (destruct (Ha _ E)). destruct l as [|? l]; [|apply (f_equal tail) in E; destruct (Ha _ E)].
    simpl in E. injection E as E1 E2 E3 _. subst. auto.
  Qed.
  Lemma not_again h T pa x : idle h T pa -> OStart x true ∈ h -> x_task x = T -> x_path x = pa -> False.
  Proof.
    intros Hi Hx <- <-. destruct (Hi _ Hx eq_refl) as [(?&?&?&E)|[(?&?&E)|[(?&?&E)|(?&?&E)]]]; discriminate.
  Qed.
  (** Where something happens, no line is unfinished, in this item and around it. The end of
      an item is the exception: it may be the end of a command's last line. *)
  Lemma quiet_around h p ev p' v x l : run_of h p -> run_of (ev :: h) p' -> has_spot ev = true -> spot_of (fun e => e ∈ h) ev v -> OStart x true ∈ h -> opened h x -> v = l ++ place x ->
    exists i j r, ev = OReturn (x_task x) [i] j r /\ x_path x = [i; j] /\ l = [].
  Proof.
    intros Hr0 Hr He Hv Hx Ho E. destruct (ended_dec h x) as [Hend|Hend].
    - destruct Ho as [Ho|(i & j & Ep & Hret)]; [contradiction|]. pose proof (run_good k tasks root Hkeyed _ _ Hr) as Hg. apply good_tail in Hg as (_ & _ & [Htok HB]).
      assert (Hin : forall T pa s, OClaim T s Fresh ∈ h -> item_around T pa s = l ++ place x -> l = [] /\ T = x_task x /\ pa = [i; j]) by (intros T pa s; exact (inside_direct h p x true i j T pa s l Hr0 Hx Ep)).
      destruct ev; try discriminate He; simpl in Hv, HB.
      + destruct Hv as (s & Hc & ->). exfalso. destruct (Hin n [] s Hc E) as (_ & _ & E'). discriminate E'.
      + destruct Hv as (s & Hc & ->). exfalso. destruct (Hin _ _ s Hc E) as (_ & E1 & E2). destruct HB as (_ & Hi & _). apply (not_again h _ _ x Hi Hx); congruence.
      + exfalso. assert (Hy : exists s, OClaim (x_task x0) s Fresh ∈ OStart x0 started :: h /\ place x0 = item_around (x_task x0) (x_path x0) s).
        { destruct (place_eq _ _ x0 started Hr) as (s & H1 & H2 & _); [left|eauto]. }
        destruct Hy as (s & Hc & E'). apply elem_of_cons in Hc as [Hc|Hc]; [discriminate Hc|].
        destruct (Hin _ (x_path x0) s Hc) as (_ & E1 & E2); [congruence|]. pose proof (st_idle _ _ _ _ HB) as Hi. apply (not_again h _ _ x Hi Hx); congruence.
      + destruct Hv as (s & Hc & ->). exfalso. destruct (Hin _ _ s Hc E) as (_ & E1 & E2). destruct HB as (_ & Hi & _). apply (not_again h _ _ x Hi Hx); congruence.
      + destruct Hv as (s & Hc & ->). exfalso. destruct (Hin _ _ s Hc E) as (_ & E1 & E2). destruct HB as (_ & Hi & _). apply (not_again h _ _ x Hi Hx); congruence.
      + destruct Hv as (s & Hc & ->). exfalso. destruct (Hin t [] s Hc E) as (_ & _ & E'). discriminate E'.
      + destruct Hv as (s & i' & -> & Hc & ->). destruct (Hin t [i'; j0] s Hc E) as (-> & -> & [= -> ->]). exists i, j, r. auto.
    - exfalso. eapply (divided_not_inside _ _ l); [|exact E].
      eapply (C96_bab_itself k tasks root Hkeyed (ev :: h) p' x ev v Hr); [apply during_now; assumption|exact He|].
      eapply spot_of_mono; [exact Hv|apply grows_cons].
  Qed.
  (** The same for a command that is running. *)
  Lemma quiet_running h p z x l : run_of h p -> OStart z true ∈ h -> OStart x true ∈ h -> ~ ended h z -> opened h x -> place z = l ++ place x -> z = x.
  Proof.
    intros Hr Hz Hx Hnz Ho E. destruct (ended_dec h x) as [Hend|Hend].
    - destruct Ho as [Ho|(i & j & Ep & _)]; [contradiction|]. destruct (place_eq h p z true Hr Hz) as (s & Hc & Ez & _). rewrite Ez in E.
      destruct (inside_direct h p x true i j _ _ s l Hr Hx Ep Hc E) as (_ & E1 & E2). eapply start_same; try eassumption. congruence.
    - destruct (in_order _ _ _ Hz Hx) as [E'|[(h2 & H1 & H2)|(h2 & H1 & H2)]]; [congruence| |]; exfalso.
      + apply (divided_not_inside _ _ l (overlap_divided k tasks root Hkeyed h p x z Hr (during_then _ _ _ _ H1 H2 Hend)) E).
      + apply (divided_not_inside _ _ l (divided_sym _ _ (overlap_divided k tasks root Hkeyed h p z x Hr (during_then _ _ _ _ H1 H2 Hnz))) E).
  Qed.
  (** An item has not returned while its command runs. *)
  Lemma not_returned h p x i j : run_of h p -> OStart x true ∈ h -> x_path x = [i; j] -> ~ ended h x -> forall r, OReturn (x_task x) [i] j r ∉ h.
  Proof.
    intros Hr Hx Ep Hn r Hin. pose proof (run_good k tasks root Hkeyed _ _ Hr) as Hg.
    destruct (in_order _ _ _ Hx Hin) as [E'|[(h2 & H1 & H2)|(h2 & H1 & H2)]]; [discriminate E'| |]; pose proof (good_suffix _ _ _ _ H1 Hg) as Hg2; apply good_tail in Hg2 as (_ & _ & [_ HB]).
    - destruct (st_slot _ _ _ _ HB i j Ep) as [_ Hs]. exact (Hs r H2).
    - destruct HB as (_ & _ & Hq & _). destruct (Hq x eq_refl) as [ok Hok]; [rewrite Ep; reflexivity|exact H2|]. apply Hn. exists ok. rewrite Ep.
      eapply suffix_elem; [|exact Hok]. etransitivity; [apply suffix_cons_self|exact H1].
  Qed.
  Lemma dry_no_start h p x b T pa w : run_of h p -> OStart x b ∈ h -> OWould T pa w ∈ h -> False.
  Proof.
    intros Hr Hx Hw. pose proof (run_good k tasks root Hkeyed _ _ Hr) as Hg.
    destruct (good_in _ _ _ _ Hg Hx) as (h1 & _ & _ & _ & [_ H1]). destruct (good_in _ _ _ _ Hg Hw) as (h2 & _ & _ & _ & [_ H2]).
    destruct H2 as [H2 _]. pose proof (st_dry _ _ _ _ H1). congruence.
  Qed.
  Lemma scope_of_in h p T s : run_of h p -> OClaim T s Fresh ∈ h -> scope_of h T = s.
  Proof.
    intros Hr Hc. assert (H : OClaim T (scope_of h T) Fresh ∈ h).
    { clear Hr. induction h as [|ev h IH]; [inversion Hc|]. apply elem_of_cons in Hc as [<-|Hc]; [simpl; rewrite decide_True by reflexivity; left|].
      specialize (IH Hc). destruct ev; try (right; exact IH). simpl. destruct s0; try (right; exact IH). destruct (decide _) as [->|]; [left|right; exact IH]. }
    eapply claim_unique; [exact (run_good k tasks root Hkeyed _ _ Hr)|exact H|exact Hc].
  Qed.
End Facts.
