From Verif Require Import Base Utf8_Model Utf8_Spec Utf8_Proof Out_Model Out_Spec Out_Proof Nest_Model Nest_Spec Nest_Proof.

Lemma made_by_app x h h' : made_by x (h ++ h') = made_by x h ++ made_by x h'.
Proof. unfold made_by. rewrite List.filter_app, fmap_app. reflexivity. Qed.
Lemma made_by_one x y o : made_by x [(y, o)] = if decide (y = x) then [o] else [].
Proof. unfold made_by. simpl. destruct (decide (y = x)) as [E|E]; [rewrite bool_decide_eq_true_2 by exact E|rewrite bool_decide_eq_false_2 by exact E]; reflexivity. Qed.
Lemma lines_of_snoc h x o p ls p' : (wcalls [] h.*2).2 = p -> wcall p o = (ls, p') -> lines_of (h ++ [(x, o)]) = lines_of h ++ ls /\ (wcalls [] (h ++ [(x, o)]).*2).2 = p'.
Proof.
  intros Hp Hc. unfold lines_of. rewrite fmap_app, wcalls_app. destruct (wcalls [] h.*2) as [l1 p1]. simpl in Hp. subst p1. cbn [fmap list_fmap wcalls snd]. rewrite Hc. cbn [wcalls]. rewrite app_nil_r. auto.
Qed.
Lemma of_writer_app i l l' : of_writer i (l ++ l') = of_writer i l ++ of_writer i l'.
Proof. unfold of_writer. rewrite List.filter_app, fmap_app. reflexivity. Qed.

Section Hist.
  Context (a : ansi_lib) (ws : list nwriter) (Hnest : nested ws) (Hone : one_block ws) (calls : list (list (nat * wop))).

  (** [pd]: what a writer that is called has still to send; [sofar]: what the terminal
      has of the line being written. *)
  Record inv (s : nstate) (hist : nat -> history) (log : nat -> list (nat * str)) (pd : nat -> list str) (sofar : nat -> str) : Prop := Inv {
    v_len : length (ns_threads s) = length calls;
    v_part : forall i, (wcalls [] (hist i).*2).2 = ns_partial s i;
    v_direct : forall t cs th i, calls !! t = Some cs -> ns_threads s !! t = Some th -> calls_to i cs = made_by (Direct t) (hist i) ++ calls_to i (t_calls th);
    v_into : forall i w j, ws !! i = Some w -> n_dest w = Into j -> map (fun l => WWrite (line_bytes a (n_as w) l)) (lines_of (hist i)) = made_by (From i) (hist j) ++ map WWrite (pd i);
    v_term : forall i w e, ws !! i = Some w -> n_dest w = Terminal e ->
      map (line_bytes a (n_as w)) (lines_of (hist i)) = of_writer i (log e) ++ match pd i with [] => [] | l :: r => (sofar e ++ l) :: r end;
    v_src : forall i x o, (x, o) ∈ hist i -> match x with Direct t => t < length calls | From c => exists w, ws !! c = Some w /\ n_dest w = Into i end;
    v_log : forall e i l, (i, l) ∈ log e -> exists w, ws !! i = Some w /\ n_dest w = Terminal e;
    v_out : forall e, ns_out s e = concat (log e).*2 ++ sofar e;
    v_sofar : forall e, sofar e <> [] -> exists i w, ws !! i = Some w /\ n_dest w = Terminal e /\ pd i <> [];
    v_pd : forall t th f, ns_threads s !! t = Some th -> f ∈ t_stack th -> pd (f_writer f) = f_lines f;
    v_pd0 : forall i, pd i <> [] -> exists t th f, ns_threads s !! t = Some th /\ f ∈ t_stack th /\ f_writer f = i }.

  Lemma inv_start : inv (nstart calls) (fun _ => []) (fun _ => []) (fun _ => []) (fun _ => []).
  Proof.
    assert (H : forall t th, map (fun cs => Thread cs []) calls !! t = Some th -> exists cs, calls !! t = Some cs /\ th = Thread cs []) by (intros t th H; rewrite list_lookup_fmap in H; apply fmap_Some in H as (cs & H & ->); eauto).
    split; simpl; try reflexivity.
    - apply map_length.
    - intros t cs th i Hc Ht. apply H in Ht as (cs' & Hc' & ->). simpl. congruence.
    - intros i x o Hx. apply elem_of_nil in Hx as [].
    - intros e i l Hx. apply elem_of_nil in Hx as [].
    - congruence.
    - intros t th f Ht Hf. apply H in Ht as (cs & _ & ->). apply elem_of_nil in Hf as [].
    - congruence.
  Qed.

  (** No call of writer [i] goes on while its mutex is free. *)
  Lemma free_pd s hist log pd sofar i w : inv s hist log pd sofar -> locks ws s -> ws !! i = Some w -> ns_mutex s (n_mutex w) = None -> pd i = [].
  Proof.
    intros Hi Hl Hw Hm. destruct (pd i) as [|x l] eqn:E; [reflexivity|]. exfalso. destruct (v_pd0 _ _ _ _ _ Hi i ltac:(rewrite E; discriminate)) as (t & th & f & Ht & Hf & Ef).
    assert (H : ns_mutex s (n_mutex w) = Some t) by (apply (lk_held _ _ Hl); exists th, f; split; [exact Ht|]; split; [exact Hf|]; exists w; rewrite Ef; auto). congruence.
  Qed.
  Lemma one_frame s t t' th th' f f' w : locks ws s -> ns_threads s !! t = Some th -> ns_threads s !! t' = Some th' -> f ∈ t_stack th -> f' ∈ t_stack th' -> ws !! f_writer f = Some w -> f_writer f' = f_writer f -> t = t' /\ f = f'.
  Proof. intros Hl Ht Ht' Hf Hf' Hw E. eapply (locks_unique ws Hnest s t t' th th' f f' (n_mutex w)); try eassumption; [exists w; auto|exists w; rewrite E; auto]. Qed.

  (** A call begins: [x] calls writer [j]. *)
  Lemma call_begins s hist log pd sofar t th j w o ls p' x th' m :
    inv s hist log pd sofar -> locks ws s -> ns_threads s !! t = Some th -> ws !! j = Some w -> ns_mutex s (n_mutex w) = None -> wcall (ns_partial s j) o = (ls, p') ->
    t_stack th' = Frame j (map (line_bytes a (n_as w)) ls) :: t_stack th ->
    match x with
    | Direct u => u = t /\ t_calls th = (j, o) :: t_calls th'
    | From c => False
    end ->
    inv (NState m (upd (ns_partial s) j p') (ns_out s) (<[t := th']> (ns_threads s))) (upd hist j (hist j ++ [(x, o)])) log (upd pd j (map (line_bytes a (n_as w)) ls)) sofar.
  Proof.
    intros Hi Hl Ht Hw Hm Hc Hst Hx. pose proof (free_pd _ _ _ _ _ _ _ Hi Hl Hw Hm) as Hpd. destruct x as [u|c]; [|contradiction]. destruct Hx as [-> Hcs].
    destruct (lines_of_snoc (hist j) (Direct t) o _ ls p' (v_part _ _ _ _ _ Hi j) Hc) as [Hlines Hpart].
    assert (Hnoframe : forall t' x f, ns_threads s !! t' = Some x -> f ∈ t_stack x -> f_writer f <> j).
    { intros t' y f Hy Hf E. assert (H : ns_mutex s (n_mutex w) = Some t') by (apply (lk_held _ _ Hl); exists y, f; split; [exact Hy|]; split; [exact Hf|]; exists w; rewrite E; auto). congruence. }
    split; cbn [ns_threads ns_partial ns_out].
    - rewrite insert_length. apply (v_len _ _ _ _ _ Hi).
    - intros i. destruct (decide (i = j)) as [->|Hne]; [rewrite !upd_same; exact Hpart|rewrite !upd_other by exact Hne; apply (v_part _ _ _ _ _ Hi)].
    - intros t' cs y i Hcs' Hy. destruct (lookup_upd _ _ _ _ _ _ Ht Hy) as [[-> ->]|[Hne Hy']].
      + rewrite (v_direct _ _ _ _ _ Hi _ _ _ i Hcs' Ht), Hcs. unfold calls_to. cbn [List.filter fst]. destruct (decide (i = j)) as [->|Hne].
        * rewrite Nat.eqb_refl, upd_same, made_by_app, made_by_one, decide_True by reflexivity. rewrite <- app_assoc. reflexivity.
        * destruct (Nat.eqb_spec j i); [congruence|]. rewrite upd_other by exact Hne. reflexivity.
      + rewrite (v_direct _ _ _ _ _ Hi _ _ _ i Hcs' Hy'). f_equal. destruct (decide (i = j)) as [->|Hne']; [|rewrite upd_other by exact Hne'; reflexivity].
        rewrite upd_same, made_by_app, made_by_one, decide_False by congruence. rewrite app_nil_r. reflexivity.
    - intros i wi k Hwi Hd. assert (Hmb : made_by (From i) (upd hist j (hist j ++ [(Direct t, o)]) k) = made_by (From i) (hist k)).
      { destruct (decide (k = j)) as [->|Hk]; [|rewrite upd_other by exact Hk; reflexivity]. rewrite upd_same, made_by_app, made_by_one, decide_False by discriminate. apply app_nil_r. }
      rewrite Hmb. pose proof (v_into _ _ _ _ _ Hi i wi k Hwi Hd) as H0. destruct (decide (i = j)) as [->|Hne].
      + rewrite !upd_same, Hlines, map_app, H0, Hpd. cbn [map]. rewrite app_nil_r. assert (wi = w) as -> by congruence. rewrite map_map. reflexivity.
      + rewrite !upd_other by exact Hne. exact H0.
    - intros i wi e Hwi Hd. pose proof (v_term _ _ _ _ _ Hi i wi e Hwi Hd) as H0. destruct (decide (i = j)) as [->|Hne].
      + rewrite !upd_same, Hlines, map_app, H0, Hpd. rewrite app_nil_r. assert (wi = w) as -> by congruence. f_equal.
        assert (Hso : sofar e = []).
        { destruct (sofar e) as [|c r] eqn:E; [reflexivity|]. exfalso. destruct (v_sofar _ _ _ _ _ Hi e ltac:(rewrite E; discriminate)) as (i2 & w2 & Hw2 & Hd2 & Hp2). apply Hp2. eapply free_pd; try eassumption. rewrite (Hone i2 j w2 w e) by assumption. exact Hm. }
        rewrite Hso. destruct (map _ ls); reflexivity.
      + rewrite !upd_other by exact Hne. exact H0.
    - intros i x o' Hx'. destruct (decide (i = j)) as [->|Hne]; [|rewrite upd_other in Hx' by exact Hne; eapply (v_src _ _ _ _ _ Hi); exact Hx'].
      rewrite upd_same in Hx'. apply elem_of_app in Hx' as [Hx'|Hx']; [eapply (v_src _ _ _ _ _ Hi); exact Hx'|]. apply elem_of_list_singleton in Hx'. injection Hx' as -> _. rewrite <- (v_len _ _ _ _ _ Hi). eapply lookup_lt_Some. exact Ht.
    - apply (v_log _ _ _ _ _ Hi).
    - apply (v_out _ _ _ _ _ Hi).
    - intros e He. destruct (v_sofar _ _ _ _ _ Hi e He) as (i2 & w2 & Hw2 & Hd2 & Hp2). exists i2, w2. split; [exact Hw2|]. split; [exact Hd2|]. destruct (decide (i2 = j)) as [->|Hne]; [congruence|rewrite upd_other by exact Hne; exact Hp2].
    - intros t' y f Hy Hf. destruct (lookup_upd _ _ _ _ _ _ Ht Hy) as [[-> ->]|[Hne Hy']].
      + rewrite Hst in Hf. apply elem_of_cons in Hf as [->|Hf]; [apply upd_same|]. rewrite upd_other by (eapply Hnoframe; eassumption). eapply (v_pd _ _ _ _ _ Hi); eassumption.
      + rewrite upd_other by (eapply Hnoframe; eassumption). eapply (v_pd _ _ _ _ _ Hi); eassumption.
    - intros i Hpi. destruct (decide (i = j)) as [->|Hne].
      + exists t, th', (Frame j (map (line_bytes a (n_as w)) ls)). split; [apply list_lookup_insert; eapply lookup_lt_Some; exact Ht|]. split; [rewrite Hst; left|reflexivity].
      + rewrite upd_other in Hpi by exact Hne. destruct (v_pd0 _ _ _ _ _ Hi i Hpi) as (t' & y & f & Hy & Hf & E). destruct (decide (t' = t)) as [->|Ht'].
        * assert (y = th) as -> by congruence. exists t, th', f. split; [apply list_lookup_insert; eapply lookup_lt_Some; exact Ht|]. split; [rewrite Hst; right; exact Hf|exact E].
        * exists t', y, f. split; [rewrite list_lookup_insert_ne by congruence; exact Hy|auto].
  Qed.

  (** The frame on top of a stack goes on to send [ls]. *)
  Lemma top_changes s pd t cs i l0 rest ls : locks ws s -> ns_threads s !! t = Some (Thread cs (Frame i l0 :: rest)) ->
    (forall t th f, ns_threads s !! t = Some th -> f ∈ t_stack th -> pd (f_writer f) = f_lines f) ->
    forall t' th f, <[t := Thread cs (Frame i ls :: rest)]> (ns_threads s) !! t' = Some th -> f ∈ t_stack th -> upd pd i ls (f_writer f) = f_lines f.
  Proof.
    intros Hl Ht Hpd t' th f Hth Hf. pose proof (lk_stack _ _ Hl _ _ Ht) as ((w & Hw) & _). cbn [f_writer] in Hw.
    assert (Hu : forall t2 th2 f2, ns_threads s !! t2 = Some th2 -> f2 ∈ t_stack th2 -> f_writer f2 = i -> t2 = t /\ f2 = Frame i l0).
    { intros t2 th2 f2 H1 H2 E. destruct (one_frame s t t2 _ _ (Frame i l0) f2 w Hl Ht H1) as [-> <-]; [left|exact H2|exact Hw|exact E|auto]. }
    destruct (lookup_upd _ _ _ _ _ _ Ht Hth) as [[-> ->]|[Hne H]].
    - cbn [t_stack] in Hf. apply elem_of_cons in Hf as [->|Hf]; [apply upd_same|]. rewrite upd_other; [eapply (Hpd t); [exact Ht|right; exact Hf]|].
      intros E. destruct (Hu t _ f Ht ltac:(right; exact Hf) E) as [_ ->]. pose proof (stacked_less ws Hnest _ _ (n_mutex w) (lk_stack _ _ Hl _ _ Ht) ltac:(exists w; auto) _ (n_mutex w) Hf ltac:(exists w; auto)). lia.
    - rewrite upd_other; [eapply Hpd; eassumption|]. intros E. destruct (Hu _ _ _ H Hf E). congruence.
  Qed.
  Lemma frames_stay s t cs i l0 rest ls k : ns_threads s !! t = Some (Thread cs (Frame i l0 :: rest)) ->
    (exists t th f, ns_threads s !! t = Some th /\ f ∈ t_stack th /\ f_writer f = k) ->
    exists t' th f, <[t := Thread cs (Frame i ls :: rest)]> (ns_threads s) !! t' = Some th /\ f ∈ t_stack th /\ f_writer f = k.
  Proof.
    intros Ht (t' & y & f & Hy & Hf & E). destruct (decide (t' = t)) as [->|Ht'].
    - assert (y = Thread cs (Frame i l0 :: rest)) as -> by congruence. cbn [t_stack] in Hf. apply elem_of_cons in Hf as [->|Hf].
      + exists t, (Thread cs (Frame i ls :: rest)), (Frame i ls). split; [apply list_lookup_insert; eapply lookup_lt_Some; exact Ht|]. split; [left|exact E].
      + exists t, (Thread cs (Frame i ls :: rest)), f. split; [apply list_lookup_insert; eapply lookup_lt_Some; exact Ht|]. split; [right; exact Hf|exact E].
    - exists t', y, f. split; [rewrite list_lookup_insert_ne by congruence; exact Hy|auto].
  Qed.
  Lemma direct_same s hist t cs0 fs fs' : ns_threads s !! t = Some (Thread cs0 fs) ->
    (forall t cs th i, calls !! t = Some cs -> ns_threads s !! t = Some th -> calls_to i cs = made_by (Direct t) (hist i) ++ calls_to i (t_calls th)) ->
    forall t' cs th i, calls !! t' = Some cs -> <[t := Thread cs0 fs']> (ns_threads s) !! t' = Some th -> calls_to i cs = made_by (Direct t') (hist i) ++ calls_to i (t_calls th).
  Proof.
    intros Ht H t' cs th i Hcs Hth. destruct (lookup_upd _ _ _ _ _ _ Ht Hth) as [[-> ->]|[_ H']]; [apply (H _ _ _ i Hcs Ht)|apply (H _ _ _ i Hcs H')].
  Qed.

  Lemma inner_call s hist log pd sofar t cs i l pend rest w j w' ls p' m :
    inv s hist log pd sofar -> locks ws s -> ns_threads s !! t = Some (Thread cs (Frame i (l :: pend) :: rest)) -> ws !! i = Some w -> n_dest w = Into j -> ws !! j = Some w' ->
    ns_mutex s (n_mutex w') = None -> wcall (ns_partial s j) (WWrite l) = (ls, p') ->
    inv (NState m (upd (ns_partial s) j p') (ns_out s) (<[t := Thread cs (Frame j (map (line_bytes a (n_as w')) ls) :: Frame i pend :: rest)]> (ns_threads s)))
      (upd hist j (hist j ++ [(From i, WWrite l)])) log (upd (upd pd i pend) j (map (line_bytes a (n_as w')) ls)) sofar.
  Proof.
    intros Hi Hl Ht Hw Hd Hw' Hm Hc. pose proof (free_pd _ _ _ _ _ _ _ Hi Hl Hw' Hm) as Hpd. pose proof (v_pd _ _ _ _ _ Hi _ _ (Frame i (l :: pend)) Ht ltac:(left)) as Hpi. cbn [f_writer f_lines] in Hpi.
    assert (Hij : i <> j) by (intros ->; congruence).
    destruct (lines_of_snoc (hist j) (From i) (WWrite l) _ ls p' (v_part _ _ _ _ _ Hi j) Hc) as [Hlines Hpart].
    assert (Hnoframe : forall t' x f, ns_threads s !! t' = Some x -> f ∈ t_stack x -> f_writer f <> j).
    { intros t' y f Hy Hf E. assert (H : ns_mutex s (n_mutex w') = Some t') by (apply (lk_held _ _ Hl); exists y, f; split; [exact Hy|]; split; [exact Hf|]; exists w'; rewrite E; auto). congruence. }
    assert (Hth' : forall t' y, <[t := Thread cs (Frame j (map (line_bytes a (n_as w')) ls) :: Frame i pend :: rest)]> (ns_threads s) !! t' = Some y -> exists y', <[t := Thread cs (Frame i pend :: rest)]> (ns_threads s) !! t' = Some y' /\ t_calls y' = t_calls y /\ forall f, f ∈ t_stack y -> f ∈ t_stack y' \/ f = Frame j (map (line_bytes a (n_as w')) ls)).
    { intros t' y Hy. destruct (lookup_upd _ _ _ _ _ _ Ht Hy) as [[-> ->]|[Hne H]].
      - exists (Thread cs (Frame i pend :: rest)). split; [apply list_lookup_insert; eapply lookup_lt_Some; exact Ht|]. split; [reflexivity|]. intros f Hf. cbn [t_stack] in *. apply elem_of_cons in Hf as [->|Hf]; auto.
      - exists y. split; [rewrite list_lookup_insert_ne by congruence; exact H|auto]. }
    assert (Hmd : forall u k, made_by (Direct u) (upd hist j (hist j ++ [(From i, WWrite l)]) k) = made_by (Direct u) (hist k)).
    { intros u k. destruct (decide (k = j)) as [->|Hk]; [|rewrite upd_other by exact Hk; reflexivity]. rewrite upd_same, made_by_app, made_by_one, decide_False by discriminate. apply app_nil_r. }
    split; cbn [ns_threads ns_partial ns_out].
    - rewrite insert_length. apply (v_len _ _ _ _ _ Hi).
    - intros k. destruct (decide (k = j)) as [->|Hne]; [rewrite !upd_same; exact Hpart|rewrite !upd_other by exact Hne; apply (v_part _ _ _ _ _ Hi)].
    - intros t' cs' y k Hcs' Hy. rewrite Hmd. eapply direct_same; [exact Ht|apply (v_direct _ _ _ _ _ Hi)|exact Hcs'|exact Hy].
    - intros k wk q Hwk Hdk. pose proof (v_into _ _ _ _ _ Hi k wk q Hwk Hdk) as H0. destruct (decide (k = j)) as [->|Hkj].
      + rewrite !upd_same, Hlines, map_app, H0, Hpd. cbn [map]. rewrite app_nil_r. assert (wk = w') as -> by congruence. rewrite map_map.
        assert (Hq : q <> j) by (intros ->; destruct (Hnest _ _ _ Hw' Hdk) as (? & ? & ?); assert (x = w') as -> by congruence; lia). rewrite (upd_other _ _ _ q Hq). reflexivity.
      + rewrite (upd_other hist) by exact Hkj. rewrite (upd_other _ j _ k) by exact Hkj. rewrite H0. destruct (decide (k = i)) as [->|Hki].
        * rewrite upd_same, Hpi. assert (q = j) as -> by congruence. rewrite upd_same, made_by_app, made_by_one, decide_True by reflexivity. cbn [map]. rewrite <- app_assoc. reflexivity.
        * rewrite (upd_other pd) by exact Hki. f_equal. destruct (decide (q = j)) as [->|Hq]; [|rewrite upd_other by exact Hq; reflexivity]. rewrite upd_same, made_by_app, made_by_one, decide_False by congruence. rewrite app_nil_r. reflexivity.
    - intros k wk e Hwk Hdk. pose proof (v_term _ _ _ _ _ Hi k wk e Hwk Hdk) as H0. destruct (decide (k = j)) as [->|Hkj].
      + rewrite !upd_same, Hlines, map_app, H0, Hpd. rewrite app_nil_r. assert (wk = w') as -> by congruence. f_equal.
        assert (Hso : sofar e = []).
        { destruct (sofar e) as [|c r] eqn:E; [reflexivity|]. exfalso. destruct (v_sofar _ _ _ _ _ Hi e ltac:(rewrite E; discriminate)) as (i2 & w2 & Hw2 & Hd2 & Hp2). apply Hp2. eapply free_pd; try eassumption. rewrite (Hone i2 j w2 w' e) by assumption. exact Hm. }
        rewrite Hso. destruct (map _ ls); reflexivity.
      + rewrite (upd_other hist) by exact Hkj. rewrite (upd_other _ j _ k) by exact Hkj. assert (Hki : k <> i) by (intros ->; congruence). rewrite (upd_other pd) by exact Hki. exact H0.
    - intros k x o' Hx'. destruct (decide (k = j)) as [->|Hne]; [|rewrite upd_other in Hx' by exact Hne; eapply (v_src _ _ _ _ _ Hi); exact Hx'].
      rewrite upd_same in Hx'. apply elem_of_app in Hx' as [Hx'|Hx']; [eapply (v_src _ _ _ _ _ Hi); exact Hx'|]. apply elem_of_list_singleton in Hx'. injection Hx' as -> _. eauto.
    - apply (v_log _ _ _ _ _ Hi).
    - apply (v_out _ _ _ _ _ Hi).
    - intros e He. destruct (v_sofar _ _ _ _ _ Hi e He) as (i2 & w2 & Hw2 & Hd2 & Hp2). exists i2, w2. split; [exact Hw2|]. split; [exact Hd2|]. assert (i2 <> j) by congruence. assert (i2 <> i) by (intros ->; congruence). rewrite !upd_other by assumption. exact Hp2.
    - intros t' y f Hy Hf. destruct (Hth' _ _ Hy) as (y' & Hy' & _ & Hfy). destruct (Hfy f Hf) as [Hf'| ->]; [|apply upd_same].
      assert (Hfj : f_writer f <> j). { destruct (lookup_upd _ _ _ _ _ _ Ht Hy') as [[-> ->]|[_ H]]; [|eapply Hnoframe; eassumption]. cbn [t_stack] in Hf'. apply elem_of_cons in Hf' as [->|Hf']; [exact Hij|]. eapply Hnoframe; [exact Ht|right; exact Hf']. }
      rewrite upd_other by exact Hfj. eapply top_changes; [exact Hl|exact Ht|apply (v_pd _ _ _ _ _ Hi)|exact Hy'|exact Hf'].
    - intros k Hk. destruct (decide (k = j)) as [->|Hkj].
      + exists t, (Thread cs (Frame j (map (line_bytes a (n_as w')) ls) :: Frame i pend :: rest)), (Frame j (map (line_bytes a (n_as w')) ls)). split; [apply list_lookup_insert; eapply lookup_lt_Some; exact Ht|]. split; [left|reflexivity].
      + rewrite upd_other in Hk by exact Hkj. assert (Hk' : pd k <> []) by (destruct (decide (k = i)) as [->|Hki]; [rewrite Hpi; discriminate|rewrite upd_other in Hk by exact Hki; exact Hk]).
        destruct (frames_stay s t cs i (l :: pend) rest pend k Ht (v_pd0 _ _ _ _ _ Hi k Hk')) as (t' & y & f & Hy & Hf & E). destruct (decide (t' = t)) as [->|Ht'].
        * rewrite list_lookup_insert in Hy by (eapply lookup_lt_Some; exact Ht). injection Hy as <-. eexists t, _, f. split; [apply list_lookup_insert; eapply lookup_lt_Some; exact Ht|]. split; [right; exact Hf|exact E].
        * rewrite list_lookup_insert_ne in Hy by congruence. exists t', y, f. split; [rewrite list_lookup_insert_ne by congruence; exact Hy|auto].
  Qed.

  (** Only one writer of a terminal is called at a time. *)
  Lemma only_writer s hist log pd sofar t th f w e k wk : inv s hist log pd sofar -> locks ws s -> ns_threads s !! t = Some th -> f ∈ t_stack th -> ws !! f_writer f = Some w -> n_dest w = Terminal e ->
    ws !! k = Some wk -> n_dest wk = Terminal e -> k <> f_writer f -> pd k = [].
  Proof.
    intros Hi Hl Ht Hf Hw Hd Hk Hdk Hne. destruct (pd k) as [|x r] eqn:E; [reflexivity|]. exfalso. destruct (v_pd0 _ _ _ _ _ Hi k ltac:(rewrite E; discriminate)) as (t' & th' & f' & Ht' & Hf' & Ef). apply Hne. rewrite <- Ef.
    destruct (locks_unique ws Hnest s t t' th th' f f' (n_mutex w) Hl Ht Ht' Hf Hf' ltac:(exists w; auto) ltac:(exists wk; rewrite Ef; split; [exact Hk|]; eapply Hone; eassumption)) as [_ ->]. reflexivity.
  Qed.
  Lemma terminal_step s hist log pd sofar t cs i l l' pend rest w e m d' log' sofar' pd_i :
    inv s hist log pd sofar -> locks ws s -> ns_threads s !! t = Some (Thread cs (Frame i (l :: pend) :: rest)) -> ws !! i = Some w -> n_dest w = Terminal e ->
    (exists c, l = c :: l' /\ pd_i = l' :: pend /\ d' = upd (ns_out s) e (ns_out s e ++ [c]) /\ sofar' = upd sofar e (sofar e ++ [c]) /\ log' = log) \/
    (l = [] /\ pd_i = pend /\ d' = ns_out s /\ sofar' = upd sofar e [] /\ log' = upd log e (log e ++ [(i, sofar e)])) ->
    inv (NState m (ns_partial s) d' (<[t := Thread cs (Frame i pd_i :: rest)]> (ns_threads s))) hist log' (upd pd i pd_i) sofar'.
  Proof.
    intros Hi Hl Ht Hw Hd Hcase. pose proof (v_pd _ _ _ _ _ Hi _ _ (Frame i (l :: pend)) Ht ltac:(left)) as Hpi. cbn [f_writer f_lines] in Hpi.
    assert (Hother : forall k wk, ws !! k = Some wk -> n_dest wk = Terminal e -> k <> i -> pd k = []) by (intros k wk Hk Hdk Hne; eapply (only_writer s hist log pd sofar t _ (Frame i (l :: pend)) w e k wk Hi Hl Ht); try eassumption; left).
    assert (Hlog' : forall k e', (e' <> e \/ k <> i) -> of_writer k (log' e') = of_writer k (log e')).
    { intros k e' Hne. destruct Hcase as [(c & _ & _ & _ & _ & ->)|(_ & _ & _ & _ & ->)]; [reflexivity|]. destruct (decide (e' = e)) as [->|He']; [|rewrite upd_other by exact He'; reflexivity]. rewrite upd_same, of_writer_app. unfold of_writer at 2. cbn [List.filter fst]. destruct (Nat.eqb_spec i k); [destruct Hne; congruence|]. apply app_nil_r. }
    assert (Hso' : forall e', e' <> e -> sofar' e' = sofar e') by (intros e' He'; destruct Hcase as [(c & _ & _ & _ & -> & _)|(_ & _ & _ & -> & _)]; apply upd_other; exact He').
    split; cbn [ns_threads ns_partial ns_out].
    - rewrite insert_length. apply (v_len _ _ _ _ _ Hi).
    - apply (v_part _ _ _ _ _ Hi).
    - eapply direct_same; [exact Ht|apply (v_direct _ _ _ _ _ Hi)].
    - intros k wk q Hwk Hdk. assert (k <> i) by (intros ->; congruence). rewrite upd_other by assumption. apply (v_into _ _ _ _ _ Hi); assumption.
    - intros k wk e' Hwk Hdk. pose proof (v_term _ _ _ _ _ Hi k wk e' Hwk Hdk) as H0. destruct (decide (k = i)) as [->|Hki].
      + assert (e' = e) as -> by congruence. rewrite H0, Hpi, upd_same. destruct Hcase as [(c & -> & -> & _ & -> & ->)|(-> & -> & _ & -> & ->)].
        * rewrite upd_same. rewrite <- app_assoc. reflexivity.
        * rewrite !upd_same, of_writer_app. unfold of_writer at 3. cbn [List.filter fst]. rewrite Nat.eqb_refl. cbn [fmap list_fmap snd]. rewrite app_nil_r, <- app_assoc. f_equal. cbn [app]. f_equal. destruct pend; reflexivity.
      + rewrite H0, Hlog' by auto. rewrite upd_other by exact Hki. f_equal. destruct (decide (e' = e)) as [->|He']; [rewrite (Hother k wk Hwk Hdk Hki); reflexivity|rewrite Hso' by exact He'; reflexivity].
    - apply (v_src _ _ _ _ _ Hi).
    - intros e' k x Hx. destruct Hcase as [(c & _ & _ & _ & _ & ->)|(_ & _ & _ & _ & ->)]; [eapply (v_log _ _ _ _ _ Hi); exact Hx|]. destruct (decide (e' = e)) as [->|He']; [|rewrite upd_other in Hx by exact He'; eapply (v_log _ _ _ _ _ Hi); exact Hx].
      rewrite upd_same in Hx. apply elem_of_app in Hx as [Hx|Hx]; [eapply (v_log _ _ _ _ _ Hi); exact Hx|]. apply elem_of_list_singleton in Hx. injection Hx as -> _. eauto.
    - intros e'. pose proof (v_out _ _ _ _ _ Hi e') as H0. destruct Hcase as [(c & _ & _ & -> & -> & ->)|(-> & _ & -> & -> & ->)]; destruct (decide (e' = e)) as [->|He']; rewrite ?upd_same, ?upd_other by exact He'; try exact H0.
      + rewrite H0, <- app_assoc. reflexivity.
      + rewrite H0, fmap_app, concat_app. simpl. rewrite !app_nil_r. reflexivity.
    - intros e' He'. destruct (decide (e' = e)) as [->|Hne].
      + exists i, w. split; [exact Hw|]. split; [exact Hd|]. rewrite upd_same. destruct Hcase as [(c & _ & -> & _)|(_ & _ & _ & -> & _)]; [discriminate|]. rewrite upd_same in He'. congruence.
      + rewrite Hso' in He' by exact Hne. destruct (v_sofar _ _ _ _ _ Hi e' He') as (i2 & w2 & Hw2 & Hd2 & Hp2). exists i2, w2. split; [exact Hw2|]. split; [exact Hd2|]. assert (i2 <> i) by (intros ->; congruence). rewrite upd_other by assumption. exact Hp2.
    - eapply top_changes; [exact Hl|exact Ht|apply (v_pd _ _ _ _ _ Hi)].
    - intros k Hk. eapply frames_stay; [exact Ht|]. apply (v_pd0 _ _ _ _ _ Hi). destruct (decide (k = i)) as [->|Hki]; [rewrite Hpi; discriminate|rewrite upd_other in Hk by exact Hki; exact Hk].
  Qed.

  (** Goroutine [t] makes a call of writer [j]. *)
  Definition adds (s s' : nstate) (t j : nat) (x : source) (o : wop) : Prop :=
    exists th th', ns_threads s !! t = Some th /\ ns_threads s' !! t = Some th' /\ th <> th' /\
    match x with Direct u => u = t /\ (j, o) ∈ t_calls th | From c => exists f w, f ∈ t_stack th /\ f_writer f = c /\ ws !! c = Some w /\ n_dest w = Into j end.
  Lemma inv_step_by s s' hist log pd sofar : locks ws s -> inv s hist log pd sofar -> nstep a ws s s' ->
    exists hist' log' pd' sofar', inv s' hist' log' pd' sofar' /\ (hist' = hist \/ exists t j x o, hist' = upd hist j (hist j ++ [(x, o)]) /\ adds s s' t j x o).
  Proof.
    intros Hl Hi H. destruct H as [m p d ts t i o cs w ls p' Ht Hw Hm Hc|m p d ts t cs i l pend rest w j w' ls p' Ht Hw Hd Hw' Hm Hc|m p d ts t cs i c l pend rest w e Ht Hw Hd|m p d ts t cs i pend rest w e Ht Hw Hd|m p d ts t cs i rest w Ht Hw].
    - do 4 eexists. split; [eapply (call_begins (NState m p d ts) hist log pd sofar t _ i w o ls p' (Direct t)); try eassumption; [reflexivity|split; reflexivity]|].
      right. exists t, i, (Direct t), o. split; [reflexivity|]. do 2 eexists. split; [exact Ht|]. split; [apply list_lookup_insert; eapply lookup_lt_Some; exact Ht|]. split; [discriminate|]. split; [reflexivity|left].
    - do 4 eexists. split; [eapply (inner_call (NState m p d ts) hist log pd sofar t cs i l pend rest w j w' ls p'); eassumption|].
      right. exists t, j, (From i), (WWrite l). split; [reflexivity|]. do 2 eexists. split; [exact Ht|]. split; [apply list_lookup_insert; eapply lookup_lt_Some; exact Ht|]. split; [|do 2 eexists; split; [left|]; split; [reflexivity|]; split; [exact Hw|exact Hd]].
      intros E. injection E as E1 E2 E3. apply (f_equal length) in E3. simpl in E3. lia.
    - do 4 eexists. split; [eapply (terminal_step (NState m p d ts) hist log pd sofar t cs i (c :: l) l pend rest w e); try eassumption; left; exists c; repeat split|left; reflexivity].
    - do 4 eexists. split; [eapply (terminal_step (NState m p d ts) hist log pd sofar t cs i [] [] pend rest w e); try eassumption; right; repeat split|left; reflexivity].
    - exists hist, log, pd, sofar. split; [|left; reflexivity]. destruct Hi as [H1 H2 H3 H4 H5 H6 H7 H8 H9 H10 H11]. cbn [ns_threads ns_partial ns_out] in *. split; cbn [ns_threads ns_partial ns_out]; try assumption.
      + rewrite insert_length. exact H1.
      + eapply (direct_same (NState m p d ts)); [exact Ht|exact H3].
      + intros t' y f Hy Hf. destruct (lookup_upd _ _ _ _ _ _ Ht Hy) as [[-> ->]|[_ H]]; [eapply H10; [exact Ht|right; exact Hf]|eapply H10; eassumption].
      + intros k Hk. destruct (H11 k Hk) as (t' & y & f & Hy & Hf & E). destruct (decide (t' = t)) as [->|Ht'].
        * assert (y = Thread cs (Frame i [] :: rest)) as -> by congruence. cbn [t_stack] in Hf. apply elem_of_cons in Hf as [->|Hf].
          -- exfalso. apply Hk. rewrite <- E. apply (H10 _ _ (Frame i []) Ht). left.
          -- eexists t, _, f. split; [apply list_lookup_insert; eapply lookup_lt_Some; exact Ht|]. split; [exact Hf|exact E].
        * exists t', y, f. split; [rewrite list_lookup_insert_ne by congruence; exact Hy|auto].
  Qed.
  Lemma inv_step s s' : locks ws s -> (exists hist log pd sofar, inv s hist log pd sofar) -> nstep a ws s s' -> exists hist log pd sofar, inv s' hist log pd sofar.
  Proof. intros Hl (hist & log & pd & sofar & Hi) H. destruct (inv_step_by s s' hist log pd sofar Hl Hi H) as (h' & l' & p' & f' & H' & _). eauto 10. Qed.
  Lemma inv_reach s : rtc (nstep a ws) (nstart calls) s -> exists hist log pd sofar, inv s hist log pd sofar.
  Proof.
    intros H. assert (Hb : locks ws s /\ exists hist log pd sofar, inv s hist log pd sofar); [|apply Hb].
    refine (rtc_ind_r (fun x => locks ws x /\ exists hist log pd sofar, inv x hist log pd sofar) (nstart calls) _ _ s H).
    - split; [apply locks_start|]. do 4 eexists. apply inv_start.
    - intros x y _ Hxy [Hl Hi]. split; [eapply locks_step; eassumption|eapply inv_step; eassumption].
  Qed.
  Lemma inv_finished s hist log pd sofar : inv s hist log pd sofar -> nfinished s -> comes_out a ws calls (ns_out s) hist log.
  Proof.
    intros [H1 H2 H3 H4 H5 H6 H7 H8 H9 H10 H11] Hf.
    assert (Hst : forall t th, ns_threads s !! t = Some th -> t_calls th = [] /\ t_stack th = []) by (intros t th Ht; unfold nfinished in Hf; rewrite Forall_forall in Hf; apply Hf; eapply elem_of_list_lookup_2; exact Ht).
    assert (Hpd : forall i, pd i = []). { intros i. destruct (pd i) eqn:E; [reflexivity|]. exfalso. destruct (H11 i ltac:(rewrite E; discriminate)) as (t & th & f & Ht & Hff & _). rewrite (proj2 (Hst _ _ Ht)) in Hff. apply elem_of_nil in Hff as []. }
    assert (Hso : forall e, sofar e = []). { intros e. destruct (sofar e) eqn:E; [reflexivity|]. exfalso. destruct (H9 e ltac:(rewrite E; discriminate)) as (i & w & _ & _ & Hp). apply Hp, Hpd. }
    split.
    - intros t cs i Hcs. assert (Hth : exists th, ns_threads s !! t = Some th) by (apply lookup_lt_is_Some_2; rewrite H1; eapply lookup_lt_Some; exact Hcs). destruct Hth as [th Hth]. rewrite (H3 _ _ _ i Hcs Hth), (proj1 (Hst _ _ Hth)). unfold calls_to at 1. simpl. rewrite app_nil_r. reflexivity.
    - intros i w j Hw Hd. rewrite (H4 _ _ _ Hw Hd), Hpd. simpl. rewrite app_nil_r. reflexivity.
    - intros i w e Hw Hd. rewrite (H5 _ _ _ Hw Hd), Hpd. rewrite app_nil_r. reflexivity.
    - exact H6.
    - exact H7.
    - intros e. rewrite H8, Hso, app_nil_r. reflexivity.
  Qed.
  Theorem all_comes_out s : rtc (nstep a ws) (nstart calls) s -> nfinished s -> exists hist log, comes_out a ws calls (ns_out s) hist log /\ forall i, (wcalls [] (hist i).*2).2 = ns_partial s i.
  Proof. intros Hr Hf. destruct (inv_reach s Hr) as (hist & log & pd & sofar & Hi). exists hist, log. split; [eapply inv_finished; eassumption|apply (v_part _ _ _ _ _ Hi)]. Qed.
End Hist.
