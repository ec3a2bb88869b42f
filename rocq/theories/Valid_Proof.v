(** Proofs about the validation pass. *)
From Verif Require Import Base Types_Model Valid_Model Valid_Spec Vars_Proof.

(** ** Slices *)
Definition wf_sl (h : heap) (s : slice) : Prop :=
  exists arr, h !! sl_arr s = Some arr /\ sl_len s <= length arr.

(** [ext s h h']: from [h] to [h'] only new arrays and cells of [s]'s array beyond
    [s]'s length have changed. *)
Definition ext (s : slice) (h h' : heap) : Prop :=
  forall a arr, h !! a = Some arr -> exists arr', h' !! a = Some arr' /\ length arr' = length arr /\
    forall i, (a = sl_arr s -> i < sl_len s) -> arr' !! i = arr !! i.

Lemma ext_refl s h : ext s h h.
Proof. intros a arr H. exists arr. auto. Qed.

Lemma ext_trans s h1 h2 h3 : ext s h1 h2 -> ext s h2 h3 -> ext s h1 h3.
Proof.
  intros H12 H23 a arr H. destruct (H12 a arr H) as (arr2 & H2 & L2 & E2).
  destruct (H23 a arr2 H2) as (arr3 & H3 & L3 & E3). exists arr3.
  split; [exact H3|]. split; [congruence|]. intros i Hi. rewrite E3, E2; auto.
Qed.

Lemma ext_wf s h h' : wf_sl h s -> ext s h h' -> wf_sl h' s.
Proof.
  intros (arr & Ha & Hl) He. destruct (He _ _ Ha) as (arr' & Ha' & L & _).
  exists arr'. split; [exact Ha'|]. lia.
Qed.

Lemma ext_wf_any s c h h' : wf_sl h c -> ext s h h' -> wf_sl h' c.
Proof.
  intros (arr & Ha & Hl) He. destruct (He _ _ Ha) as (arr' & Ha' & L & _).
  exists arr'. split; [exact Ha'|]. lia.
Qed.

Lemma ext_read s h h' : wf_sl h s -> ext s h h' -> sl_read h' s = sl_read h s.
Proof.
  intros (arr & Ha & Hl) He. destruct (He _ _ Ha) as (arr' & Ha' & L & E).
  unfold sl_read. rewrite Ha, Ha'. simpl. apply list_eq. intros i.
  destruct (decide (i < sl_len s)) as [Hi|Hi].
  - rewrite !lookup_take by exact Hi. apply E. intros _; exact Hi.
  - rewrite !lookup_take_ge by lia. reflexivity.
Qed.

Lemma append_spec grow h s x h1 c : wf_sl h s -> go_append grow h s x = (h1, c) ->
  wf_sl h1 c /\ sl_read h1 c = sl_read h s ++ [x] /\ (forall h2, ext c h1 h2 -> ext s h h2).
Proof.
  intros (arr & Ha & Hl). unfold go_append. rewrite Ha. simpl.
  pose proof (lookup_lt_Some _ _ _ Ha) as Hlt.
  destruct (decide (sl_len s < length arr)) as [Hin|Hin]; intros H; injection H as <- <-.
  - split; [|split].
    + exists (<[sl_len s := x]> arr). simpl. rewrite list_lookup_insert by exact Hlt.
      split; [reflexivity|]. rewrite insert_length. lia.
    + unfold sl_read. simpl. rewrite list_lookup_insert, Ha by exact Hlt. simpl.
      erewrite take_S_r by (apply list_lookup_insert; exact Hin).
      rewrite take_insert by lia. reflexivity.
    + intros h2 He a arr0 H0. destruct (decide (a = sl_arr s)) as [->|Hne].
      * rewrite Ha in H0. injection H0 as <-.
        destruct (He (sl_arr s) (<[sl_len s := x]> arr)) as (arr2 & H2 & L2 & E2).
        { apply list_lookup_insert; exact Hlt. }
        exists arr2. split; [exact H2|]. rewrite insert_length in L2. split; [exact L2|].
        intros i Hi. specialize (Hi eq_refl). rewrite E2 by (simpl; lia).
        apply list_lookup_insert_ne. lia.
      * destruct (He a arr0) as (arr2 & H2 & L2 & E2).
        { rewrite list_lookup_insert_ne by congruence. exact H0. }
        exists arr2. split; [exact H2|]. split; [exact L2|]. intros i _. apply E2. simpl. congruence.
  - assert (sl_len s = length arr) as Hlen by lia. split; [|split].
    + eexists. simpl. rewrite list_lookup_middle by reflexivity. split; [reflexivity|].
      rewrite app_length, take_length. simpl. lia.
    + unfold sl_read. simpl. rewrite list_lookup_middle by reflexivity. simpl. rewrite Ha. simpl.
      rewrite (take_ge arr) by lia. rewrite Hlen.
      change (x :: replicate (grow (length arr) - S (length arr)) [])
        with ([x] ++ replicate (grow (length arr) - S (length arr)) []).
      rewrite (assoc_L app).
      replace (S (length arr)) with (length (arr ++ [x])) by (rewrite app_length; simpl; lia).
      apply take_app.
    + intros h2 He a arr0 H0. destruct (He a arr0) as (arr2 & H2 & L2 & E2).
      { rewrite lookup_app_l by (apply lookup_lt_Some in H0; exact H0). exact H0. }
      exists arr2. split; [exact H2|]. split; [exact L2|]. intros i _. apply E2. simpl.
      apply lookup_lt_Some in H0. lia.
Qed.

Lemma ext_length s h h' : ext s h h' -> length h <= length h'.
Proof.
  intros He. destruct (decide (length h = 0)) as [|Hne]; [lia|].
  destruct (lookup_lt_is_Some_2 h (length h - 1)) as [arr Ha]; [lia|].
  destruct (He _ _ Ha) as (arr' & Ha' & _). apply lookup_lt_Some in Ha'. lia.
Qed.

(** An array other than the one being appended to is untouched. *)
Lemma ext_read_other s c h h' : sl_arr c <> sl_arr s -> wf_sl h c -> ext s h h' ->
  wf_sl h' c /\ sl_read h' c = sl_read h c.
Proof.
  intros Hne (arr & Ha & Hl) He. destruct (He _ _ Ha) as (arr' & Ha' & L & Eq). split.
  - exists arr'. split; [exact Ha'|]. lia.
  - unfold sl_read. rewrite Ha, Ha'. simpl. f_equal. apply list_eq. intros i. apply Eq. congruence.
Qed.

(** *** Capacities *)
Section Tight.
  Context (grow : nat -> nat).
  Notation next := (fun c => Nat.max (grow c) (S c)).

  Lemma iter_next_lt n m : n < m -> Nat.iter n next 0 < Nat.iter m next 0.
  Proof. intros H. induction H as [|m H IH]; simpl; lia. Qed.

  Lemma tight_gap k c : tight grow k -> tight grow c -> c < k -> next c <= k.
  Proof.
    intros [n ->] [m ->] H. destruct (decide (m < n)) as [Hmn|Hmn].
    - destruct (decide (n = S m)) as [->|Hne]; [simpl; lia|].
      assert (S m < n) as Hlt by lia. apply iter_next_lt in Hlt. simpl in Hlt. lia.
    - destruct (decide (n = m)) as [->|Hne]; [lia|]. assert (n < m) as Hlt by lia.
      apply iter_next_lt in Hlt. lia.
  Qed.

  (** The capacity of the array is the first tight length at or above the slice's. *)
  Definition cap_inv (h : heap) (s : slice) : Prop :=
    exists arr, h !! sl_arr s = Some arr /\ tight grow (length arr) /\
      forall k, tight grow k -> sl_len s <= k -> length arr <= k.

  Lemma cap_inv_ext s h h' : cap_inv h s -> ext s h h' -> cap_inv h' s.
  Proof.
    intros (arr & Ha & H1 & H2) He. destruct (He _ _ Ha) as (arr' & Ha' & L & _).
    exists arr'. rewrite L. auto.
  Qed.

  Lemma cap_inv_append h s x h1 c : wf_sl h s -> cap_inv h s -> go_append grow h s x = (h1, c) ->
    cap_inv h1 c /\ (tight grow (sl_len s) -> sl_arr c = length h).
  Proof.
    intros (arr & Ha & Hl) (arr' & Ha' & Ht & Hk). rewrite Ha in Ha'. injection Ha' as <-.
    unfold go_append. rewrite Ha. simpl. pose proof (lookup_lt_Some _ _ _ Ha) as Hlt.
    destruct (decide (sl_len s < length arr)) as [Hin|Hin]; intros H; injection H as <- <-; simpl.
    - split.
      + exists (<[sl_len s := x]> arr). simpl. rewrite list_lookup_insert by exact Hlt.
        split; [reflexivity|]. rewrite insert_length. split; [exact Ht|]. intros k Htk Hle. apply Hk; [exact Htk|lia].
      + intros Hts. exfalso. specialize (Hk _ Hts (le_n _)). lia.
    - assert (sl_len s = length arr) as Hlen by lia. split; [|reflexivity].
      eexists. simpl. rewrite list_lookup_middle by reflexivity. split; [reflexivity|].
      assert (length (take (sl_len s) arr ++ x :: replicate (grow (length arr) - S (sl_len s)) []) = next (length arr)) as ->.
      { rewrite app_length, take_length. simpl. rewrite replicate_length. lia. }
      split.
      + destruct Ht as [n Hn]. exists (S n). simpl. rewrite <- Hn. reflexivity.
      + intros k Htk Hle. apply tight_gap; [exact Htk|exact Ht|lia].
  Qed.
End Tight.

(** ** References *)
Lemma refers_iff items n : refers items n <->
  exists it, it ∈ items /\ match it with RTask r => r_task r = n | RPar _ sub => refers sub n | _ => False end.
Proof.
  split.
  - induction 1 as [r rest|o sub rest n H _|it rest n H IH].
    + exists (RTask r). split; [left|reflexivity].
    + exists (RPar o sub). split; [left|exact H].
    + destruct IH as (it' & Hin & Hm). exists it'. split; [right; exact Hin|exact Hm].
  - intros (it & Hin & Hm). induction items as [|i items IH]; [apply elem_of_nil in Hin; contradiction|].
    apply elem_of_cons in Hin as [->|Hin]; [|apply refers_later, IH, Hin].
    destruct i; try contradiction; [subst; apply refers_here|apply refers_inside; exact Hm].
Qed.

Lemma refers_nil n : ~ refers [] n.
Proof. intros H. apply refers_iff in H as (it & Hin & _). apply elem_of_nil in Hin. exact Hin. Qed.

(** What a single item refers to. *)
Definition item_refers (it : run_item) (n : str) : Prop := refers [it] n.

Lemma refers_cons it rest n : refers (it :: rest) n <-> item_refers it n \/ refers rest n.
Proof.
  unfold item_refers. split.
  - intros H. apply refers_iff in H as (i & Hin & Hm). apply elem_of_cons in Hin as [->|Hin].
    + left. apply refers_iff. exists it. split; [left|exact Hm].
    + right. apply refers_iff. eauto.
  - intros [H|H]; [|apply refers_later; exact H]. apply refers_iff in H as (i & Hin & Hm).
    apply elem_of_list_singleton in Hin as ->. apply refers_iff. exists it. split; [left|exact Hm].
Qed.

Lemma item_refers_task r n : item_refers (RTask r) n <-> n = r_task r.
Proof.
  unfold item_refers. rewrite refers_iff. split.
  - intros (i & Hin & Hm). apply elem_of_list_singleton in Hin as ->. auto.
  - intros ->. exists (RTask r). split; [left|reflexivity].
Qed.

Lemma item_refers_par o sub n : item_refers (RPar o sub) n <-> refers sub n.
Proof.
  unfold item_refers. rewrite refers_iff. split.
  - intros (i & Hin & Hm). apply elem_of_list_singleton in Hin as ->. exact Hm.
  - intros H. exists (RPar o sub). split; [left|exact H].
Qed.

Lemma tm_has_true tasks n : tm_has tasks n = true <-> is_Some (tasks !! n).
Proof. apply bool_decide_eq_true. Qed.

Lemma tm_has_false tasks n : tm_has tasks n = false <-> tasks !! n = None.
Proof. unfold tm_has. rewrite bool_decide_eq_false. rewrite <- eq_None_not_Some. reflexivity. Qed.

(** ** The depth-first search *)
Section Search.
  Context (grow : nat -> nat) (tasks : taskmap).
  Notation E := (edge tasks).

  Definition good_err (e : verr) : Prop := exists c now, e = VCircular c now /\ linked E now.

  Definition first_real (l : list verr) : Prop :=
    exists c now rest, l = VCircular c now :: rest /\ closes E now.

  (** Nodes on the stack are exactly the path; finished nodes reach no cycle. *)
  Definition clean (path : list str) (s : cyc) : Prop :=
    y_rec s = list_to_set path /\ (forall n, n ∈ path -> n ∈ y_visited s) /\
    (forall n, n ∈ y_visited s -> n ∉ path -> Acc (flip E) n).

  (** Errors whose chain filled an array are in arrays of their own, and are still
      intact at the end. *)
  Definition kept (s s' : cyc) (new : list verr) : Prop :=
    forall c now, VCircular c now ∈ new -> wf_sl (y_heap s') c /\ (tight grow (sl_len c - 1) ->
      length (y_heap s) <= sl_arr c /\ sl_read (y_heap s') c = now).

  Lemma kept_nil s s' : kept s s' [].
  Proof. intros c now H. apply elem_of_nil in H. contradiction. Qed.

  Definition post (chain : slice) (path : list str) (s s' : cyc) (Q : Prop) : Prop :=
    ext chain (y_heap s) (y_heap s') /\ y_visited s ⊆ y_visited s' /\
    exists new, y_errs s' = y_errs s ++ new /\ (Forall good_err new /\ kept s s' new) /\
      (clean path s -> (new = [] /\ clean path s' /\ Q) \/ first_real new).

  Definition need (s : cyc) : nat := size (dom tasks ∖ y_visited s).

  Definition pre (chain : slice) (path : list str) (s : cyc) : Prop :=
    (wf_sl (y_heap s) chain /\ cap_inv grow (y_heap s) chain) /\ sl_read (y_heap s) chain = path /\ linked E path.

  Lemma post_refl chain path s (Q : Prop) : Q -> post chain path s s Q.
  Proof.
    intros HQ. split; [apply ext_refl|]. split; [reflexivity|]. exists []. rewrite app_nil_r.
    split; [reflexivity|]. split; [split; [constructor|apply kept_nil]|]. intros Hc. left. auto.
  Qed.

  Lemma post_pre chain path s s' Q : pre chain path s -> post chain path s s' Q -> pre chain path s'.
  Proof.
    intros ((Hw & Hcap) & Hr & Hl) (He & _).
    split; [split; [eapply ext_wf; eassumption|eapply cap_inv_ext; eassumption]|]. split; [|exact Hl].
    rewrite (ext_read _ _ _ Hw He). exact Hr.
  Qed.

  Lemma post_need chain path s s' Q : post chain path s s' Q -> need s' <= need s.
  Proof.
    intros (_ & Hv & _). unfold need. apply subseteq_size. intros x.
    rewrite !elem_of_difference. intros [H1 H2]. split; [exact H1|]. intros H. apply H2, Hv, H.
  Qed.

  Lemma first_real_app l m : first_real l -> first_real (l ++ m).
  Proof. intros (c & now & rest & -> & H). exists c, now, (rest ++ m). split; [reflexivity|exact H]. Qed.

  Lemma post_trans chain path s1 s2 s3 (Q1 Q2 : Prop) :
    pre chain path s1 -> post chain path s1 s2 Q1 -> post chain path s2 s3 Q2 -> post chain path s1 s3 (Q1 /\ Q2).
  Proof.
    intros ((Hw & _) & _) (He1 & Hv1 & n1 & Hn1 & [Hg1 Hk1] & Hc1) (He2 & Hv2 & n2 & Hn2 & [Hg2 Hk2] & Hc2).
    split; [eapply ext_trans; eassumption|]. split; [etrans; eassumption|].
    exists (n1 ++ n2). split; [rewrite Hn2, Hn1, (assoc_L app); reflexivity|].
    split.
    { split; [apply Forall_app_2; assumption|]. intros c now Hin. apply elem_of_app in Hin as [Hin|Hin].
      - destruct (Hk1 c now Hin) as (Hb & Hd). split; [eapply ext_wf_any; eassumption|]. intros Htc.
        destruct (Hd Htc) as [Ha Hnow]. split; [exact Ha|]. rewrite <- Hnow.
        apply (ext_read_other chain); [|exact Hb|exact He2].
        destruct Hw as (arr & Harr & _). apply lookup_lt_Some in Harr. lia.
      - destruct (Hk2 c now Hin) as (Hb & Hd). split; [exact Hb|]. intros Htc.
        destruct (Hd Htc) as [Ha Hnow]. split; [|exact Hnow]. apply ext_length in He1. lia. }
    intros Hc.
    destruct (Hc1 Hc) as [(-> & Hc' & HQ1)|Hf]; [|right; apply first_real_app; exact Hf].
    destruct (Hc2 Hc') as [(-> & Hc'' & HQ2)|Hf]; [left|right; exact Hf]. auto.
  Qed.

  Lemma post_impl chain path s s' (Q Q' : Prop) : (Q -> Q') -> post chain path s s' Q -> post chain path s s' Q'.
  Proof.
    intros HQ (He & Hv & n & Hn & Hg & Hc). split; [exact He|]. split; [exact Hv|]. exists n.
    split; [exact Hn|]. split; [exact Hg|]. intros H. destruct (Hc H) as [(? & ? & ?)|?]; [left|right]; auto.
  Qed.

  (** Adding a cycle error for an edge out of the last node of the path. *)
  Lemma add_cycle_post chain path s x y (Q : Prop) :
    pre chain path s -> last path = Some y -> E y x -> x ∈ y_rec s ->
    post chain path s (add_cycle grow chain x s) Q.
  Proof.
    intros ((Hw & Hcap) & Hr & Hl) Hlast Hyx Hx. unfold add_cycle.
    destruct (go_append grow (y_heap s) chain x) as [h c] eqn:Ea.
    destruct (append_spec _ _ _ _ _ _ Hw Ea) as (Hwc & Hread & Hext).
    split; [apply Hext, ext_refl|]. split; [reflexivity|].
    exists [VCircular c (sl_read h c)]. split; [reflexivity|].
    assert (Hlk : linked E (sl_read h c)).
    { rewrite Hread, Hr. apply linked_snoc; [exact Hl|]. intros z Hz. rewrite Hlast in Hz.
      injection Hz as <-. exact Hyx. }
    split.
    { split; [constructor; [|constructor]; exists c, (sl_read h c); auto|].
      intros c' now Hin. apply elem_of_list_singleton in Hin. injection Hin as -> ->.
      split; [exact Hwc|]. intros Htc.
      destruct (cap_inv_append _ _ _ _ _ _ Hw Hcap Ea) as (_ & Hfresh).
      assert (sl_len c - 1 = sl_len chain) as Hlc.
      { unfold go_append in Ea. destruct (decide _) in Ea; injection Ea as _ <-; simpl; lia. }
      rewrite Hlc in Htc. split; [rewrite (Hfresh Htc); simpl; lia|reflexivity]. }
    intros (Hrec & _ & _). right. exists c, (sl_read h c), []. split; [reflexivity|].
    exists path, x. split; [rewrite Hread, Hr; reflexivity|]. split; [|exact Hlk].
    rewrite Hrec in Hx. apply elem_of_list_to_set in Hx. exact Hx.
  Qed.

  (** What a target of an edge needs for its source to be finished. *)
  Definition settled (path : list str) (n : str) : Prop := n ∉ path /\ Acc (flip E) n.

  Lemma absent_acc n : tasks !! n = None -> Acc (flip E) n.
  Proof. intros H. constructor. intros m (t & Ht & _). congruence. Qed.

  Section Loops.
    Context (D : str -> slice -> cyc -> cyc) (fuel : nat).
    Context (HD : forall n chain path s, pre chain path s -> linked E (path ++ [n]) -> need s < fuel ->
      n ∉ y_visited s -> is_Some (tasks !! n) ->
      post chain path s (D n chain s) (settled path n)).

    (** The common body of both loops. *)
    Lemma visit_post chain path s x y : pre chain path s -> need s < fuel ->
      last path = Some y -> E y x -> x ∉ y_rec s ->
      post chain path s (if decide (x ∉ y_visited s) then if tm_has tasks x then D x chain s else s else s)
        (settled path x).
    Proof.
      intros Hp Hn Hlast Hyx Hx. destruct (decide (x ∉ y_visited s)) as [Hv|Hv].
      - destruct (tm_has tasks x) eqn:Hh.
        + apply tm_has_true in Hh. apply HD; auto. destruct Hp as (_ & _ & Hl).
          apply linked_snoc; [exact Hl|]. intros z Hz. rewrite Hlast in Hz. injection Hz as <-. exact Hyx.
        + apply tm_has_false in Hh. split; [apply ext_refl|]. split; [reflexivity|]. exists [].
          rewrite app_nil_r. split; [reflexivity|]. split; [split; [constructor|apply kept_nil]|]. intros Hc. left.
          split; [reflexivity|]. split; [exact Hc|]. split; [|apply absent_acc; exact Hh].
          destruct Hc as (_ & Hin & _). intros H. apply Hv, Hin, H.
      - split; [apply ext_refl|]. split; [reflexivity|]. exists [].
        rewrite app_nil_r. split; [reflexivity|]. split; [split; [constructor|apply kept_nil]|]. intros Hc. left.
        split; [reflexivity|]. split; [exact Hc|]. apply dec_stable in Hv. destruct Hc as (Hrec & _ & Hacc).
        assert (x ∉ path) as Hnp.
        { rewrite Hrec in Hx. intros H. apply Hx, elem_of_list_to_set, H. }
        split; [exact Hnp|]. apply Hacc; assumption.
    Qed.

    Lemma deps_post chain path y : last path = Some y ->
      forall l s, pre chain path s -> need s < fuel -> (forall n, n ∈ l -> E y n) ->
      post chain path s (check_deps grow tasks D chain l s).1 (forall n, n ∈ l -> settled path n) /\
      ((check_deps grow tasks D chain l s).2 = true ->
        forall Q, post chain path s (check_deps grow tasks D chain l s).1 Q).
    Proof.
      intros Hlast. induction l as [|x l IH]; intros s Hp Hn He; simpl.
      - split; [|discriminate]. apply post_refl. intros n H. apply elem_of_nil in H. contradiction.
      - destruct (decide (x ∈ y_rec s)) as [Hx|Hx]; simpl.
        + split; [|intros _ Q]; eapply add_cycle_post; eauto; apply He; left.
        + assert (Hxe : E y x) by (apply He; left).
          pose proof (visit_post chain path s x y Hp Hn Hlast Hxe Hx) as Hv.
          destruct (decide (x ∉ y_visited s)) as [Hnv|Hnv].
          * specialize (IH (if tm_has tasks x then D x chain s else s)).
            destruct IH as [H1 H2]; [eapply post_pre; eassumption| | |].
            { eapply Nat.le_lt_trans; [eapply post_need; exact Hv|exact Hn]. }
            { intros n H. apply He. right; exact H. }
            split; [|intros H Q; eapply post_impl; [|eapply post_trans; [exact Hp|exact Hv|exact (H2 H Q)]]; tauto].
            eapply post_impl; [|eapply post_trans; [exact Hp|exact Hv|exact H1]].
            intros [Ha Hb] n H. apply elem_of_cons in H as [->|H]; auto.
          * destruct (IH s Hp Hn) as [H1 H2]; [intros n H; apply He; right; exact H|].
            split; [|intros H Q; eapply post_impl; [|eapply post_trans; [exact Hp|exact Hv|exact (H2 H Q)]]; tauto].
            eapply post_impl; [|eapply post_trans; [exact Hp|exact Hv|exact H1]].
            intros [Ha Hb] n H. apply elem_of_cons in H as [->|H]; auto.
    Qed.

    Definition item_ok (it : run_item) : Prop := forall chain path y s, last path = Some y ->
      pre chain path s -> need s < fuel -> (forall n, item_refers it n -> E y n) ->
      post chain path s (check_item grow tasks D chain it s).1 (forall n, item_refers it n -> settled path n) /\
      ((check_item grow tasks D chain it s).2 = true ->
        forall Q, post chain path s (check_item grow tasks D chain it s).1 Q).

    Lemma items_post_gen l : Forall item_ok l -> forall chain path y s, last path = Some y ->
      pre chain path s -> need s < fuel -> (forall n, refers l n -> E y n) ->
      post chain path s (check_items grow tasks D chain l s) (forall n, refers l n -> settled path n).
    Proof.
      induction 1 as [|it l Hit _ IH]; intros chain path y s Hlast Hp Hn He; simpl.
      - apply post_refl. intros n H. apply refers_nil in H. contradiction.
      - destruct (Hit chain path y s Hlast Hp Hn) as [H1 H2].
        { intros n H. apply He, refers_cons. left; exact H. }
        destruct (check_item grow tasks D chain it s) as [s' stop]. simpl in H1, H2. destruct stop.
        + apply H2. reflexivity.
        + specialize (IH chain path y s' Hlast). eapply post_impl; [|eapply post_trans; [exact Hp|exact H1|apply IH]].
          * intros [Ha Hb] n H. apply refers_cons in H as [H|H]; auto.
          * eapply post_pre; eassumption.
          * eapply Nat.le_lt_trans; [eapply post_need; exact H1|exact Hn].
          * intros n H. apply He, refers_cons. right; exact H.
    Qed.

    Lemma check_items_fix chain : forall l s,
      ((fix go (l : list run_item) (s : cyc) : cyc :=
          match l with
          | [] => s
          | i :: r => let '(s', stop) := check_item grow tasks D chain i s in if stop then s' else go r s'
          end) l s) = check_items grow tasks D chain l s.
    Proof. induction l as [|i r IH]; intros s; simpl; [reflexivity|].
      destruct (check_item grow tasks D chain i s) as [s' []]; [reflexivity|]. apply IH. Qed.

    Lemma item_post it : item_ok it.
    Proof.
      induction it as [c|r|l|p|o sub IH] using run_item_rec'; intros chain path y s Hlast Hp Hn He.
      - simpl. split; [apply post_refl|discriminate]. intros n H. apply refers_iff in H as (i & Hin & Hm).
        apply elem_of_list_singleton in Hin as ->. contradiction.
      - assert (Hxe : E y (r_task r)) by (apply He, item_refers_task; reflexivity).
        simpl. destruct (decide (r_task r ∈ y_rec s)) as [Hx|Hx]; simpl.
        + split; [|intros _ Q]; eapply add_cycle_post; eauto.
        + pose proof (visit_post chain path s (r_task r) y Hp Hn Hlast Hxe Hx) as Hv.
          assert (forall n, item_refers (RTask r) n -> n = r_task r) as Heq by (intros n; apply item_refers_task).
          destruct (decide (r_task r ∉ y_visited s)) as [Hnv|Hnv]; simpl.
          * split; [|discriminate]. eapply post_impl; [|exact Hv]. intros Hs n H. rewrite (Heq n H). exact Hs.
          * split; [|discriminate]. eapply post_impl; [|exact Hv]. intros Hs n H. rewrite (Heq n H). exact Hs.
      - simpl. split; [apply post_refl|discriminate]. intros n H. apply refers_iff in H as (i & Hin & Hm).
        apply elem_of_list_singleton in Hin as ->. contradiction.
      - simpl. split; [apply post_refl|discriminate]. intros n H. apply refers_iff in H as (i & Hin & Hm).
        apply elem_of_list_singleton in Hin as ->. contradiction.
      - simpl. rewrite check_items_fix. split; [|discriminate].
        eapply post_impl; [|eapply (items_post_gen sub IH chain path y s Hlast Hp Hn)].
        + intros H n Hr. apply H. apply item_refers_par in Hr. exact Hr.
        + intros n Hr. apply He. apply item_refers_par. exact Hr.
    Qed.

    Lemma items_post l : forall chain path y s, last path = Some y ->
      pre chain path s -> need s < fuel -> (forall n, refers l n -> E y n) ->
      post chain path s (check_items grow tasks D chain l s) (forall n, refers l n -> settled path n).
    Proof. apply items_post_gen. apply Forall_forall. intros it _. apply item_post. Qed.
  End Loops.

  Lemma dfs_post fuel : forall n chain path s, pre chain path s -> linked E (path ++ [n]) -> need s < fuel ->
    n ∉ y_visited s -> is_Some (tasks !! n) ->
    post chain path s (dfs grow tasks fuel n chain s) (settled path n).
  Proof.
    induction fuel as [|fuel IH]; intros n chain path s Hp Hlk Hn Hnv [t Ht]; [lia|].
    destruct Hp as ((Hw & Hcap) & Hr & Hl). simpl.
    destruct (go_append grow (y_heap s) chain n) as [h c] eqn:Ea.
    destruct (append_spec _ _ _ _ _ _ Hw Ea) as (Hw1 & Hread & Hext).
    set (s1 := Cyc ({[n]} ∪ y_visited s) ({[n]} ∪ y_rec s) h (y_errs s)).
    rewrite Ht.
    assert (Hlast : last (path ++ [n]) = Some n) by apply last_snoc.
    assert (Hp1 : pre c (path ++ [n]) s1).
    { split; [split; [exact Hw1|apply (cap_inv_append _ _ _ _ _ _ Hw Hcap Ea)]|]. split; [|exact Hlk]. simpl. rewrite Hread, Hr. reflexivity. }
    assert (Hn1 : need s1 < fuel).
    { assert (need s1 < need s); [|lia]. unfold need. apply subset_size. simpl.
      assert (n ∈ dom tasks) as Hdom by (apply elem_of_dom; eauto).
      split; [intros x; rewrite !elem_of_difference, elem_of_union; tauto|].
      intros H. assert (n ∈ dom tasks ∖ y_visited s) as Hin by (apply elem_of_difference; auto).
      apply H, elem_of_difference in Hin as [_ Hin]. apply Hin, elem_of_union. left. apply elem_of_singleton. reflexivity. }
    assert (Hclean1 : clean path s -> clean (path ++ [n]) s1).
    { intros (Hc1 & Hc2 & Hc3). split; [|split]; simpl.
      - rewrite list_to_set_app_L, Hc1. simpl. rewrite union_empty_r_L. apply union_comm_L.
      - intros m Hm. apply elem_of_app in Hm as [Hm|Hm]; apply elem_of_union.
        + right. apply Hc2, Hm.
        + left. apply elem_of_list_singleton in Hm as ->. apply elem_of_singleton. reflexivity.
      - intros m Hm Hmp. apply elem_of_union in Hm as [Hm|Hm].
        + apply elem_of_singleton in Hm as ->. exfalso. apply Hmp, elem_of_app. right. left.
        + apply Hc3; [exact Hm|]. intros H. apply Hmp, elem_of_app. left; exact H. }
    assert (Hed : forall m, m ∈ t_deps t -> E n m) by (intros m Hm; exists t; auto).
    assert (Her : forall m, refers (t_run t) m -> E n m) by (intros m Hm; exists t; auto).
    destruct (deps_post (dfs grow tasks fuel) fuel IH c (path ++ [n]) n Hlast (t_deps t) s1 Hp1 Hn1 Hed) as [Hd Hstop].
    destruct (check_deps grow tasks (dfs grow tasks fuel) c (t_deps t) s1) as [s2 returned].
    simpl in Hd, Hstop. destruct returned.
    - destruct (Hstop eq_refl False) as (He & Hv & new & Hnew & [Hg Hk] & Hc).
      split; [apply Hext; exact He|]. split; [etrans; [|exact Hv]; simpl; apply union_subseteq_r|].
      exists new. split; [exact Hnew|]. split.
      { split; [exact Hg|]. intros c' now Hin. destruct (Hk c' now Hin) as (Hb & Hd').
        split; [exact Hb|]. intros Htc. destruct (Hd' Htc) as [Ha Hnow]. split; [|exact Hnow]. simpl in Ha. pose proof (ext_length _ _ _ (Hext _ (ext_refl c h))). lia. }
      intros Hcl.
      destruct (Hc (Hclean1 Hcl)) as [(_ & _ & [])|Hf]. right; exact Hf.
    - pose proof (items_post (dfs grow tasks fuel) fuel IH (t_run t) c (path ++ [n]) n s2 Hlast) as Hi.
      specialize (Hi (post_pre _ _ _ _ _ Hp1 Hd)).
      specialize (Hi (Nat.le_lt_trans _ _ _ (post_need _ _ _ _ _ Hd) Hn1) Her).
      pose proof (post_trans _ _ _ _ _ _ _ Hp1 Hd Hi) as (He & Hv & new & Hnew & [Hg Hk] & Hc).
      set (s3 := check_items grow tasks (dfs grow tasks fuel) c (t_run t) s2) in *.
      split; [apply Hext; exact He|]. split; [etrans; [|exact Hv]; simpl; apply union_subseteq_r|].
      exists new. split; [exact Hnew|]. split.
      { split; [exact Hg|]. intros c' now Hin. destruct (Hk c' now Hin) as (Hb & Hd').
        split; [exact Hb|]. intros Htc. destruct (Hd' Htc) as [Ha Hnow]. split; [|exact Hnow]. simpl in Ha. pose proof (ext_length _ _ _ (Hext _ (ext_refl c h))). lia. }
      intros Hcl.
      destruct (Hc (Hclean1 Hcl)) as [(-> & (Hr3 & Hv3 & Ha3) & Hset1 & Hset2)|Hf]; [left|right; exact Hf].
      destruct Hcl as (Hc1 & Hc2 & Hc3).
      assert (Hnp : n ∉ path) by (intros H; apply Hnv, Hc2, H).
      assert (Hacc : Acc (flip E) n).
      { constructor. intros m (t' & Ht' & Hm). rewrite Ht in Ht'. injection Ht' as <-.
        destruct Hm as [Hm|Hm]; [apply (Hset1 m Hm)|apply (Hset2 m Hm)]. }
      split; [reflexivity|]. split; [|split; [exact Hnp|exact Hacc]].
      split; [|split]; simpl.
      + rewrite Hr3, list_to_set_app_L. simpl. rewrite union_empty_r_L. apply set_eq. intros m.
        rewrite elem_of_difference, elem_of_union, elem_of_singleton, elem_of_list_to_set.
        split; [tauto|]. intros H. split; [left; exact H|]. intros ->. contradiction.
      + intros m Hm. apply Hv3, elem_of_app. left; exact Hm.
      + intros m Hm Hmp. destruct (decide (m = n)) as [->|Hne]; [exact Hacc|].
        apply Ha3; [exact Hm|]. rewrite elem_of_app, elem_of_list_singleton. tauto.
  Qed.
End Search.

Section Top.
  Context (grow : nat -> nat) (tasks : taskmap).
  Notation E := (edge tasks).

  Lemma loop_post order : forall s, pre grow tasks nil_slice [] s -> (forall n, n ∈ order -> is_Some (tasks !! n)) ->
    post grow tasks nil_slice [] s (cyc_loop grow tasks order s) (forall n, n ∈ order -> Acc (flip E) n).
  Proof.
    induction order as [|n order IH]; intros s Hp Hord; simpl.
    - apply post_refl. intros n H. apply elem_of_nil in H. contradiction.
    - assert (Hstep : post grow tasks nil_slice [] s
        (if decide (n ∈ y_visited s) then s else dfs grow tasks (S (size tasks)) n nil_slice s) (Acc (flip E) n)).
      { destruct (decide (n ∈ y_visited s)) as [Hv|Hv].
        - split; [apply ext_refl|]. split; [reflexivity|]. exists []. rewrite app_nil_r.
          split; [reflexivity|]. split; [split; [constructor|apply kept_nil]|]. intros Hc. left. split; [reflexivity|].
          split; [exact Hc|]. destruct Hc as (_ & _ & Ha). apply Ha; [exact Hv|]. apply not_elem_of_nil.
        - eapply (post_impl _ _ _ _ _ _ (settled tasks [] n)); [intros [_ H]; exact H|]. apply dfs_post; auto.
          + intros i a b Ha Hb. apply lookup_lt_Some in Hb. simpl in Hb. lia.
          + unfold need. rewrite <- size_dom. apply Nat.lt_succ_r, subseteq_size. apply subseteq_difference_l. reflexivity.
          + apply Hord. left. }
      eapply post_impl; [|eapply post_trans; [exact Hp|exact Hstep|apply IH]].
      + intros [H1 H2] m Hm. apply elem_of_cons in Hm as [->|Hm]; auto.
      + eapply post_pre; eassumption.
      + intros m Hm. apply Hord. right; exact Hm.
  Qed.

  Lemma pre0 : pre grow tasks nil_slice [] cyc0.
  Proof.
    split; [split|]; [exists []; split; [reflexivity|simpl; lia]| |].
    - exists []. split; [reflexivity|]. split; [exists 0; reflexivity|]. simpl. lia.
    - split; [reflexivity|apply linked_nil].
  Qed.

  Lemma clean0 : clean tasks [] cyc0.
  Proof.
    split; [reflexivity|]. split; intros n H; [apply elem_of_nil in H; contradiction|].
    apply elem_of_empty in H. contradiction.
  Qed.

  Lemma run_cycles_post order : iteration_order tasks order ->
    (Forall (good_err tasks) (y_errs (validate_run_cycles grow tasks order)) /\
     kept grow cyc0 (validate_run_cycles grow tasks order) (y_errs (validate_run_cycles grow tasks order))) /\
    ((y_errs (validate_run_cycles grow tasks order) = [] /\ (forall n, Acc (flip E) n)) \/
     first_real tasks (y_errs (validate_run_cycles grow tasks order))).
  Proof.
    intros Ho. pose proof (iteration_order_elem _ _ Ho) as Hin.
    destruct (loop_post order cyc0 pre0 (fun n H => proj1 (Hin n) H)) as (_ & _ & new & Hnew & Hg & Hc).
    simpl in Hnew. unfold validate_run_cycles in *. rewrite Hnew. split; [exact Hg|].
    destruct (Hc clean0) as [(-> & _ & Ha)|Hf]; [left|right; exact Hf]. split; [reflexivity|].
    intros n. destruct (tasks !! n) as [t|] eqn:Et; [|apply absent_acc; exact Et].
    apply Ha, Hin. eauto.
  Qed.

  Lemma cycles_iff order : iteration_order tasks order ->
    (y_errs (validate_run_cycles grow tasks order) <> [] <-> cyclic tasks).
  Proof.
    intros Ho. destruct (run_cycles_post order Ho) as [_ [[Hn Ha]|Hf]].
    - rewrite Hn. split; [congruence|]. intros [a Hcy]. exfalso. exact (Acc_no_tc E a (Ha a) Hcy).
    - destruct Hf as (c & now & rest & -> & Hcl). split; [|discriminate]. intros _.
      apply closes_tc in Hcl as [n Hn]. exists n. exact Hn.
  Qed.

  Lemma chains_good order : iteration_order tasks order ->
    Forall (linked E) (chains_when_added grow tasks order) /\
    (forall c rest, chains_when_added grow tasks order = c :: rest -> closes E c).
  Proof.
    intros Ho. destruct (run_cycles_post order Ho) as [[Hg _] Hfirst].
    unfold chains_when_added. split.
    - clear Hfirst. induction Hg as [|e l (c & now & -> & Hl) _ IH]; simpl; [constructor|].
      constructor; [exact Hl|exact IH].
    - intros c rest. destruct Hfirst as [[-> _]|(c' & now & rest' & -> & Hcl)]; [discriminate|].
      simpl. intros H; injection H as <- _. exact Hcl.
  Qed.

  Lemma chains_nonempty order : iteration_order tasks order ->
    (chains_when_added grow tasks order <> [] <-> cyclic tasks).
  Proof.
    intros Ho. rewrite <- (cycles_iff order Ho). destruct (run_cycles_post order Ho) as [[Hg _] _].
    unfold chains_when_added. destruct Hg as [|e l (c & now & -> & Hl) _]; simpl; split; congruence.
  Qed.

  (** Chains that filled their array are reported as they were added. *)
  Lemma reported_tight order i c : iteration_order tasks order ->
    reported_chains grow tasks order !! i = Some c -> tight grow (length c - 1) ->
    chains_when_added grow tasks order !! i = Some c.
  Proof.
    intros Ho. destruct (run_cycles_post order Ho) as [[Hg Hk] _].
    unfold reported_chains, chains_when_added.
    set (s := validate_run_cycles grow tasks order) in *.
    assert (Hall : forall e, e ∈ y_errs s -> exists c0 now, e = VCircular c0 now /\
      (tight grow (length (sl_read (y_heap s) c0) - 1) -> sl_read (y_heap s) c0 = now)).
    { intros e He. pose proof (proj1 (Forall_forall _ _) Hg e He) as (c0 & now & -> & _).
      exists c0, now. split; [reflexivity|]. intros Ht. destruct (Hk c0 now He) as [(arr & Ha & Hl) Hn].
      apply Hn. revert Ht. unfold sl_read at 1. rewrite Ha. simpl. rewrite take_length, Nat.min_l by exact Hl. auto. }
    clearbody s. clear Hg Hk. revert i. induction (y_errs s) as [|e l IH]; intros i; [simpl; rewrite lookup_nil; discriminate|].
    destruct (Hall e) as (c0 & now & -> & Hr); [left|]. destruct i as [|i]; simpl.
    - intros H; injection H as <-. intros Ht. rewrite (Hr Ht). reflexivity.
    - apply IH. intros e He. apply Hall. right; exact He.
  Qed.
End Top.

(** ** Dangling references *)
Lemma flat_map_nil {A B} (f : A -> list B) l : flat_map f l = [] <-> forall x, x ∈ l -> f x = [].
Proof.
  induction l as [|x l IH]; simpl.
  - split; [intros _ y H; apply elem_of_nil in H; contradiction|reflexivity].
  - rewrite app_nil, IH. split.
    + intros [H1 H2] y Hy. apply elem_of_cons in Hy as [->|Hy]; auto.
    + intros H. split; [apply H; left|]. intros y Hy. apply H. right; exact Hy.
Qed.

Lemma item_refs_nil tasks by_ it :
  item_task_refs tasks by_ it = [] <-> forall n, item_refers it n -> is_Some (tasks !! n).
Proof.
  induction it as [c|r|l|p|o sub IH] using run_item_rec'; simpl.
  1,3,4: split; [|reflexivity]; intros _ n H; apply refers_iff in H as (i & Hin & Hm);
    apply elem_of_list_singleton in Hin as ->; contradiction.
  - destruct (tm_has tasks (r_task r)) eqn:Eh.
    + apply tm_has_true in Eh. split; [|reflexivity]. intros _ n H. apply item_refers_task in H as ->. exact Eh.
    + apply tm_has_false in Eh. split; [discriminate|]. intros H. destruct (H (r_task r)) as [t Ht].
      * apply item_refers_task. reflexivity.
      * congruence.
  - rewrite flat_map_nil. rewrite Forall_forall in IH. split.
    + intros H n Hn. apply item_refers_par, refers_iff in Hn as (i & Hin & Hm).
      apply (proj1 (IH i Hin) (H i Hin)). unfold item_refers. apply refers_iff. exists i. split; [left|exact Hm].
    + intros H i Hin. apply IH; [exact Hin|]. intros n Hn. apply H. apply item_refers_par, refers_iff.
      unfold item_refers in Hn. apply refers_iff in Hn as (i' & Hin' & Hm).
      apply elem_of_list_singleton in Hin' as ->. eauto.
Qed.

Lemma items_refs_nil tasks by_ l :
  flat_map (item_task_refs tasks by_) l = [] <-> forall n, refers l n -> is_Some (tasks !! n).
Proof.
  rewrite flat_map_nil. split.
  - intros H n Hn. apply refers_iff in Hn as (i & Hin & Hm).
    apply (proj1 (item_refs_nil tasks by_ i) (H i Hin)). apply refers_iff. exists i. split; [left|exact Hm].
  - intros H i Hin. apply item_refs_nil. intros n Hn. apply H, refers_iff.
    apply refers_iff in Hn as (i' & Hin' & Hm). apply elem_of_list_singleton in Hin' as ->. eauto.
Qed.

Lemma refs_pass_nil tasks o1 o2 : iteration_order tasks o1 -> iteration_order tasks o2 ->
  (validate_dependencies tasks o1 = [] /\ validate_run_task_refs tasks o2 = []) <-> ~ dangling tasks.
Proof.
  intros Ho1 Ho2. pose proof (iteration_order_elem _ _ Ho1) as H1. pose proof (iteration_order_elem _ _ Ho2) as H2.
  unfold validate_dependencies, validate_run_task_refs. rewrite !flat_map_nil. split.
  - intros [Hd Hr] (a & n & (t & Ht & He) & Hn). destruct He as [He|He].
    + assert (a ∈ o1) as Ha by (apply H1; eauto). specialize (Hd a Ha). rewrite Ht, flat_map_nil in Hd.
      specialize (Hd n He). apply tm_has_false in Hn. rewrite Hn in Hd. discriminate.
    + assert (a ∈ o2) as Ha by (apply H2; eauto). specialize (Hr a Ha). rewrite Ht, items_refs_nil in Hr.
      destruct (Hr n He). congruence.
  - intros Hnd. split; intros a _; destruct (tasks !! a) as [t|] eqn:Et; try reflexivity.
    + apply flat_map_nil. intros n Hn. destruct (tm_has tasks n) eqn:Eh; [reflexivity|].
      exfalso. apply Hnd. exists a, n. split; [exists t; auto|]. apply tm_has_false; exact Eh.
    + apply items_refs_nil. intros n Hn. destruct (tasks !! n) eqn:En; [eauto|].
      exfalso. apply Hnd. exists a, n. split; [exists t; auto|exact En].
Qed.

(** ** Which dangling references are reported *)
Lemma in_item_refs tasks by_ it e : e ∈ item_task_refs tasks by_ it <->
  exists r, (e = VNotFound (r_line r) (r_task r) by_ /\ tasks !! r_task r = None) /\ at_depth it r.
Proof.
  induction it as [c|r|l|p|o sub IH] using run_item_rec'; simpl.
  1,3,4: split; [intros H; apply elem_of_nil in H; contradiction|intros (r & _ & H); inversion H].
  - destruct (tm_has tasks (r_task r)) eqn:Eh.
    + split; [intros H; apply elem_of_nil in H; contradiction|]. intros (r' & [_ Hn] & Hd). inversion Hd; subst.
      apply tm_has_true in Eh as [t Ht]. congruence.
    + apply tm_has_false in Eh. rewrite elem_of_list_singleton. split.
      * intros ->. exists r. split; [auto|constructor].
      * intros (r' & [-> _] & Hd). inversion Hd; subst. reflexivity.
  - rewrite elem_of_list_In, in_flat_map. rewrite Forall_forall in IH. split.
    + intros (i & Hi & He). apply elem_of_list_In in Hi, He. apply IH in He as (r & H1 & H2); [|exact Hi].
      exists r. split; [exact H1|]. econstructor; eassumption.
    + intros (r & H1 & H2). inversion H2 as [|o' l' i r' Hi Hd]; subst. exists i.
      split; [apply elem_of_list_In; exact Hi|]. apply elem_of_list_In, IH; [exact Hi|]. eauto.
Qed.

Lemma in_deps_pass tasks order e : iteration_order tasks order ->
  e ∈ validate_dependencies tasks order <->
  exists a t n, tasks !! a = Some t /\ n ∈ t_deps t /\ tasks !! n = None /\
    e = VNotFound (match t_deps_line t with 0 => t_line t | k => k end) n a.
Proof.
  intros Ho. pose proof (iteration_order_elem _ _ Ho) as Hin. unfold validate_dependencies.
  rewrite elem_of_list_In, in_flat_map. split.
  - intros (a & _ & He). destruct (tasks !! a) as [t|] eqn:Et; [|destruct He].
    apply in_flat_map in He as (n & Hn & He). destruct (tm_has tasks n) eqn:Eh; [destruct He|].
    destruct He as [<-|[]]. exists a, t, n. apply elem_of_list_In in Hn. apply tm_has_false in Eh. auto.
  - intros (a & t & n & Ha & Hn & Hnone & ->). exists a. split; [apply elem_of_list_In, Hin; eauto|].
    rewrite Ha. apply in_flat_map. exists n. split; [apply elem_of_list_In; exact Hn|].
    apply tm_has_false in Hnone. rewrite Hnone. left; reflexivity.
Qed.

Lemma in_refs_pass tasks order e : iteration_order tasks order ->
  e ∈ validate_run_task_refs tasks order <->
  exists a t it r, tasks !! a = Some t /\ it ∈ t_run t /\ at_depth it r /\ tasks !! r_task r = None /\
    e = VNotFound (r_line r) (r_task r) a.
Proof.
  intros Ho. pose proof (iteration_order_elem _ _ Ho) as Hin. unfold validate_run_task_refs.
  rewrite elem_of_list_In, in_flat_map. split.
  - intros (a & _ & He). destruct (tasks !! a) as [t|] eqn:Et; [|destruct He].
    apply in_flat_map in He as (it & Hit & He). apply elem_of_list_In in He, Hit.
    apply in_item_refs in He as (r & [-> Hn] & Hd). exists a, t, it, r. auto 6.
  - intros (a & t & it & r & Ha & Hit & Hd & Hnone & ->). exists a. split; [apply elem_of_list_In, Hin; eauto|].
    rewrite Ha. apply in_flat_map. exists it. split; [apply elem_of_list_In; exact Hit|].
    apply elem_of_list_In, in_item_refs. eauto.
Qed.

Lemma at_depth_refers l n : refers l n <-> exists it r, it ∈ l /\ at_depth it r /\ r_task r = n.
Proof.
  split.
  - induction 1 as [r rest|o sub rest n _ IH|it rest n _ IH].
    + exists (RTask r), r. split; [left|]. split; [constructor|reflexivity].
    + destruct IH as (it & r & Hin & Hd & <-). exists (RPar o sub), r. split; [left|].
      split; [econstructor; eassumption|reflexivity].
    + destruct IH as (it' & r & Hin & Hd & <-). exists it', r. split; [right; exact Hin|auto].
  - intros (it & r & Hin & Hd & <-). revert l Hin. induction Hd as [r|o sub i r Hi Hd IH]; intros l Hin.
    + apply refers_iff. exists (RTask r). auto.
    + apply refers_iff. exists (RPar o sub). split; [exact Hin|]. apply IH. exact Hi.
Qed.
