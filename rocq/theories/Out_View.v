(** Lemmas about the displays of parallel blocks. *)
From Verif Require Import Base Utf8_Model Utf8_Spec Utf8_Proof Out_Model Out_Spec Out_Proof.

(** ** Removing only removes *)
Lemma remove_tree_sub fuel k m j it : remove_tree fuel k m !! j = Some it -> m !! j = Some it.
Proof.
  revert k m j it. induction fuel as [|f IH]; intros k m j it; simpl; [auto|]. intros H. apply lookup_delete_Some in H as [_ H]. destruct (m !! k) as [x|]; [|exact H].
  revert H. generalize (i_children x). intros l. revert m. induction l as [|c l IHl]; intros m H; [exact H|]. simpl in H. apply IHl in H. eapply IH. exact H.
Qed.
Lemma remove_trees_sub fuel l m j it : fold_left (fun m ck => remove_tree fuel ck m) l m !! j = Some it -> m !! j = Some it.
Proof. revert m. induction l as [|c l IHl]; intros m H; [exact H|]. cbn [fold_left] in H. apply IHl in H. eapply remove_tree_sub. exact H. Qed.

(** ** [since] *)
Lemma since_none P ms : existsb P ms = false -> since P ms = ms.
Proof. destruct ms as [|m r]; [reflexivity|]. simpl. intros H. apply orb_false_iff in H as [-> ->]. reflexivity. Qed.
Lemma since_snoc P ms m : since P (ms ++ [m]) = if P m then [] else since P ms ++ [m].
Proof.
  induction ms as [|m0 r IH]; simpl; [destruct (P m); reflexivity|]. rewrite existsb_app. simpl. rewrite orb_false_r, IH.
  destruct (P m) eqn:E; [rewrite orb_true_r; reflexivity|]. rewrite orb_false_r. destruct (existsb P r); [reflexivity|]. destruct (P m0); reflexivity.
Qed.
Lemma outputs_app k a b : outputs k (a ++ b) = outputs k a ++ outputs k b.
Proof. induction a as [|[] a IH]; simpl; try exact IH; [reflexivity|]. destruct (decide _); simpl; rewrite IH; reflexivity. Qed.
Lemma last_done_snoc k a m : last_done k (a ++ [m]) = match last_done k [m] with Some x => Some x | None => last_done k a end.
Proof.
  induction a as [|m0 a IH]; [simpl; destruct m; try reflexivity; destruct (decide _); reflexivity|]. rewrite <- app_comm_cons. set (x := last_done k [m]) in *. clearbody x. destruct m0; cbn [last_done]; try exact IH.
  rewrite IH. destruct x; reflexivity.
Qed.

(** ** The last lines *)
Lemma latest_nil max : latest max [] [].
Proof. exists []. split; [reflexivity|]. split; [reflexivity|]. simpl. split; [lia|congruence]. Qed.
Lemma keep_last_latest max all l x : latest max all l -> latest max (all ++ [x]) (keep_last max (l ++ [x])).
Proof.
  intros (d & -> & H0 & H1). unfold keep_last. destruct (Nat.ltb_spec 0 max); simpl.
  - destruct (H1 ltac:(lia)) as [Hle Hd]. rewrite app_length. simpl. destruct (Nat.ltb_spec max (length l + 1)).
    + assert (length l = max) by lia. replace (length l + 1 - max) with 1 by lia. destruct l as [|y l]; simpl in *; [lia|]. rewrite drop_0. exists (d ++ [y]).
      split; [rewrite <- !app_assoc; reflexivity|]. split; [lia|]. intros _. rewrite app_length. simpl. split; lia.
    + exists d. split; [rewrite <- app_assoc; reflexivity|]. split; [lia|]. intros _. rewrite app_length. simpl. split; [lia|]. intros Hne. specialize (Hd Hne). lia.
  - exists d. split; [rewrite <- app_assoc; reflexivity|]. split; [exact H0|lia].
Qed.

(** ** What an item's record holds *)
Definition record_ok (max : nat) (ms : list msg) (k : str) (it : item) : Prop :=
  latest max (outputs k (since (restarts k) ms)) (i_lines it) /\
  (i_started it = true <-> MStart k ∈ since (registers k) ms) /\
  (i_done it = true <-> is_Some (last_done k (since (registers k) ms))) /\
  i_err it = match last_done k (since (registers k) ms) with Some e => e | None => None end.

Lemma handle_max v m : v_max (handle v m) = v_max v.
Proof. destruct m; simpl; try reflexivity; repeat case_match; reflexivity. Qed.
Lemma handle_roots v m : v_roots (handle v m) = v_roots v.
Proof. destruct m; simpl; try reflexivity; repeat case_match; reflexivity. Qed.

Lemma record_fresh max ms k p : record_ok max (ms ++ [MRegister k p]) k fresh.
Proof.
  unfold record_ok. rewrite !since_snoc. simpl. rewrite bool_decide_true by (left; reflexivity). rewrite bool_decide_true by reflexivity. simpl.
  split; [apply latest_nil|]. split; [split; [discriminate|intros H; apply elem_of_nil in H as []]|]. split; [|reflexivity]. split; [discriminate|intros [x Hx]; discriminate Hx].
Qed.
(** A message that does not touch the record. *)
Lemma record_same max ms k it m : record_ok max ms k it -> restarts k m = false -> (forall l, m <> MOutput k l) -> m <> MStart k -> (forall e, m <> MDone k e) -> record_ok max (ms ++ [m]) k it.
Proof.
  intros (H1 & H2 & H3 & H4) Hr Ho Hs Hd. assert (Hg : registers k m = false).
  { destruct m; try reflexivity. simpl in *. apply bool_decide_eq_false in Hr. apply bool_decide_eq_false. tauto. }
  unfold record_ok. rewrite !since_snoc, Hr, Hg, outputs_app, last_done_snoc.
  assert (outputs k [m] = []) as ->. { destruct m as [| |key line| | | |]; simpl; try reflexivity. destruct (decide (key = k)) as [->|]; [exfalso; eapply Ho; reflexivity|reflexivity]. }
  assert (last_done k [m] = None) as ->. { destruct m as [| | |key e| | |]; simpl; try reflexivity. destruct (decide (key = k)) as [->|]; [exfalso; eapply Hd; reflexivity|reflexivity]. }
  rewrite app_nil_r. split; [exact H1|]. split; [|split; [exact H3|exact H4]]. rewrite H2, elem_of_app, elem_of_list_singleton. split; [auto|]. intros [H|H]; [exact H|congruence].
Qed.

Lemma record_step ms v m : (forall k it, v_items v !! k = Some it -> record_ok (v_max v) ms k it) ->
  forall k it, v_items (handle v m) !! k = Some it -> record_ok (v_max v) (ms ++ [m]) k it.
Proof.
  intros IH k it. destruct m as [key parent|key|key line|key e|key| |]; simpl.
  - assert (Hkeep : forall i0, <[key := fresh]> (v_items v) !! k = Some i0 -> ~ (parent = k /\ parent <> []) -> record_ok (v_max v) (ms ++ [MRegister key parent]) k i0).
    { intros i0 H Hp. destruct (decide (key = k)) as [->|Hne]; [rewrite lookup_insert in H; injection H as <-; apply record_fresh|]. rewrite lookup_insert_ne in H by exact Hne.
      apply record_same; try discriminate; [apply IH; exact H|]. simpl. apply bool_decide_false. intros [?|?]; tauto. }
    destruct parent as [|pc pr]; [intros H; apply Hkeep; [exact H|intros [_ Hn]; congruence]|]. set (parent := pc :: pr) in *.
    destruct (<[key := fresh]> (v_items v) !! parent) as [p|] eqn:Ep.
    + simpl. intros H. destruct (decide (parent = k)) as [<-|Hne].
      * rewrite lookup_insert in H. injection H as <-. destruct (decide (key = parent)) as [->|Hne].
        -- rewrite lookup_insert in Ep. injection Ep as <-. exact (record_fresh (v_max v) ms parent parent).
        -- rewrite lookup_insert_ne in Ep by exact Hne. destruct (IH _ _ Ep) as (H1 & H2 & H3 & H4). unfold record_ok. rewrite !since_snoc. simpl.
           rewrite (bool_decide_true (key = parent \/ _)) by (right; split; [reflexivity|discriminate]). rewrite bool_decide_false by exact Hne. simpl.
           split; [apply latest_nil|]. rewrite last_done_snoc. simpl. split; [|split; [exact H3|exact H4]]. rewrite H2, elem_of_app, elem_of_list_singleton. split; [auto|]. intros [Hx|Hx]; [exact Hx|discriminate Hx].
      * rewrite lookup_insert_ne in H by exact Hne. apply Hkeep; [exact H|tauto].
    + simpl. intros H. apply Hkeep; [exact H|]. intros [<- _]. congruence.
  - destruct (v_items v !! key) as [x|] eqn:E; simpl.
    + intros H. destruct (decide (key = k)) as [->|Hne].
      * rewrite lookup_insert in H. injection H as <-. destruct (IH _ _ E) as (H1 & H2 & H3 & H4). unfold record_ok. rewrite !since_snoc. simpl. rewrite outputs_app, last_done_snoc. simpl. rewrite app_nil_r.
        split; [exact H1|]. split; [|split; [exact H3|exact H4]]. rewrite elem_of_app, elem_of_list_singleton. split; [auto|reflexivity].
      * rewrite lookup_insert_ne in H by exact Hne. apply record_same; try discriminate; [apply IH; exact H|reflexivity|congruence].
    + intros H. apply record_same; try discriminate; [apply IH; exact H|reflexivity|congruence].
  - destruct (v_items v !! key) as [x|] eqn:E; simpl.
    + intros H. destruct (decide (key = k)) as [->|Hne].
      * rewrite lookup_insert in H. injection H as <-. destruct (IH _ _ E) as (H1 & H2 & H3 & H4). unfold record_ok. rewrite !since_snoc. simpl. rewrite outputs_app, last_done_snoc. simpl. rewrite decide_True by reflexivity.
        split; [apply keep_last_latest; exact H1|]. split; [|split; [exact H3|exact H4]]. rewrite H2, elem_of_app, elem_of_list_singleton. split; [auto|]. intros [Hx|Hx]; [exact Hx|discriminate Hx].
      * rewrite lookup_insert_ne in H by exact Hne. apply record_same; try discriminate; [apply IH; exact H|reflexivity|congruence].
    + intros H. apply record_same; try discriminate; [apply IH; exact H|reflexivity|congruence].
  - destruct (v_items v !! key) as [x|] eqn:E; simpl.
    + intros H. destruct (decide (key = k)) as [->|Hne].
      * rewrite lookup_insert in H. injection H as <-. destruct (IH _ _ E) as (H1 & H2 & H3 & H4). unfold record_ok. rewrite !since_snoc. simpl. rewrite outputs_app, last_done_snoc. simpl. rewrite decide_True by reflexivity. rewrite app_nil_r.
        split; [exact H1|]. split; [|split; [split; [eauto|reflexivity]|reflexivity]]. rewrite H2, elem_of_app, elem_of_list_singleton. split; [auto|]. intros [Hx|Hx]; [exact Hx|discriminate Hx].
      * rewrite lookup_insert_ne in H by exact Hne. apply record_same; try discriminate; [apply IH; exact H|reflexivity|congruence].
    + intros H. apply record_same; try discriminate; [apply IH; exact H|reflexivity|congruence].
  - assert (Hk : forall i0, record_ok (v_max v) ms k i0 -> record_ok (v_max v) (ms ++ [MClear key]) k i0) by (intros i0 H; apply record_same; try discriminate; [exact H|reflexivity]).
    destruct (v_items v !! key) as [x|] eqn:E; simpl; [|intros H; apply Hk, IH, H].
    set (m1 := fold_left _ _ _). destruct (m1 !! key) as [y|] eqn:E1; simpl.
    + intros H. destruct (decide (key = k)) as [->|Hne].
      * rewrite lookup_insert in H. injection H as <-. apply Hk. exact (IH _ _ E).
      * rewrite lookup_insert_ne in H by exact Hne. apply Hk, IH. exact (remove_trees_sub (S (size (v_items v))) (i_children x) _ _ _ H).
    + intros H. apply Hk, IH. exact (remove_trees_sub (S (size (v_items v))) (i_children x) _ _ _ H).
  - intros H. apply record_same; try discriminate; [apply IH; exact H|reflexivity].
  - intros H. apply record_same; try discriminate; [apply IH; exact H|reflexivity].
Qed.

Lemma new_items n max k it : v_items (new_display n max) !! k = Some it -> it = fresh /\ exists i, i < n /\ k = item_key i.
Proof.
  simpl. intros H. apply elem_of_list_to_map_2 in H. rewrite map_map in H. apply elem_of_list_In, in_map_iff in H as (i & E & Hi). apply in_seq in Hi.
  injection E as <- <-. split; [reflexivity|]. exists i. split; [lia|reflexivity].
Qed.
Lemma new_items_all n max i : i < n -> is_Some (v_items (new_display n max) !! item_key i).
Proof.
  intros Hi. simpl. rewrite map_map. destruct (list_to_map _ !! item_key i) eqn:E; [eauto|]. exfalso. apply not_elem_of_list_to_map_2 in E. apply E.
  rewrite <- list_fmap_compose. apply elem_of_list_fmap. exists i. split; [reflexivity|]. apply elem_of_seq. lia.
Qed.
Lemma handle_all_snoc v ms m : handle_all v (ms ++ [m]) = handle (handle_all v ms) m.
Proof. unfold handle_all. rewrite fold_left_app. reflexivity. Qed.
Lemma handle_all_max v ms : v_max (handle_all v ms) = v_max v.
Proof. induction ms as [|m ms IH] using rev_ind; [reflexivity|]. rewrite handle_all_snoc, handle_max. exact IH. Qed.
Lemma records n max ms k it : v_items (handle_all (new_display n max) ms) !! k = Some it -> record_ok max ms k it.
Proof.
  revert k it. induction ms as [|m ms IH] using rev_ind; intros k it.
  - intros H. apply new_items in H as [-> _]. unfold record_ok. simpl. split; [apply latest_nil|]. split; [split; [discriminate|intros H; apply elem_of_nil in H as []]|]. split; [|reflexivity]. split; [discriminate|intros [x Hx]; discriminate Hx].
  - rewrite handle_all_snoc. intros H. pose proof (record_step ms (handle_all (new_display n max) ms) m) as Hs. rewrite handle_all_max in Hs. exact (Hs IH k it H).
Qed.

(** ** Trees of keys *)
Lemma belowb_spec p k : belowb p k = true <-> below p k.
Proof.
  unfold belowb, below, has_prefix. split.
  - intros H. destruct (strip_prefix (p ++ lit ".") k) as [r|] eqn:E; [|discriminate H]. exists r. apply strip_prefix_Some in E. rewrite E, <- app_assoc. reflexivity.
  - intros [r ->]. replace (p ++ "."%char :: r) with ((p ++ lit ".") ++ r) by (rewrite <- app_assoc; reflexivity). rewrite strip_prefix_app. reflexivity.
Qed.

Definition in_tree (k j : str) : Prop := j = k \/ below k j.
Global Instance in_tree_dec k j : Decision (in_tree k j).
Proof. unfold in_tree. destruct (decide (j = k)); [left; auto|]. destruct (belowb k j) eqn:E; [left; right; apply belowb_spec; exact E|right]. intros [?|H]; [contradiction|]. apply belowb_spec in H. congruence. Defined.
Lemma below_trans a b c : below a b -> below b c -> below a c.
Proof. intros [r ->] [q ->]. exists (r ++ "."%char :: q). rewrite <- app_assoc. reflexivity. Qed.
Lemma below_longer a b : below a b -> length a < length b.
Proof. intros [r ->]. rewrite app_length. simpl. lia. Qed.
Lemma below_irrefl a : ~ below a a.
Proof. intros H. apply below_longer in H. lia. Qed.
Lemma below_child p i : below p (p ++ "."%char :: itoa i).
Proof. eexists. reflexivity. Qed.
(** What is above a child is the parent or above it. *)
Lemma above_child a p i : below a (p ++ "."%char :: itoa i) -> a = p \/ below a p.
Proof.
  intros [r H]. revert p H. induction a as [|c a IH]; intros p H; simpl in H.
  - destruct p as [|d p]; [left; reflexivity|]. right. simpl in H. injection H as -> _. exists p. reflexivity.
  - destruct p as [|d p]; simpl in H.
    + exfalso. injection H as <- H. apply (itoa_no_dot i). rewrite H. apply elem_of_app. right. left.
    + injection H as -> H. destruct (IH p H) as [-> | [q ->]]; [left; reflexivity|]. right. exists q. reflexivity.
Qed.

Definition closed (m : gmap str item) : Prop :=
  forall j it, m !! j = Some it ->
    ("."%char ∉ j \/ exists p i itp, j = p ++ "."%char :: itoa i /\ m !! p = Some itp /\ j ∈ i_children itp) /\
    forall c, c ∈ i_children it -> exists i, c = j ++ "."%char :: itoa i.

Definition without (Q : str -> bool) (m : gmap str item) : gmap str item := filter (fun x => Q x.1 = false) m.
Lemma without_lookup Q m j it : without Q m !! j = Some it <-> m !! j = Some it /\ Q j = false.
Proof. unfold without. rewrite map_filter_lookup_Some. reflexivity. Qed.
Lemma without_ext Q Q' m : (forall j it, m !! j = Some it -> Q j = Q' j) -> without Q m = without Q' m.
Proof.
  intros H. apply map_eq. intros j. apply option_eq. intros it. rewrite !without_lookup. split; intros [H1 H2]; (split; [exact H1|]); [rewrite <- (H _ _ H1)|rewrite (H _ _ H1)]; exact H2.
Qed.
Lemma without_without Q Q' m : without Q (without Q' m) = without (fun j => Q' j || Q j) m.
Proof. apply map_eq. intros j. apply option_eq. intros it. rewrite !without_lookup, orb_false_iff. tauto. Qed.
Definition inb (k j : str) : bool := bool_decide (in_tree k j).
(** Leaving out whole trees keeps the rest closed. *)
Lemma closed_without Q m : closed m -> (forall a j, Q a = true -> below a j -> Q j = true) -> closed (without Q m).
Proof.
  intros Hc HQ j it H. apply without_lookup in H as [H Hj]. destruct (Hc _ _ H) as [H1 H2]. split; [|exact H2]. destruct H1 as [H1|(p & i & itp & -> & Hp & Hin)]; [left; exact H1|right].
  exists p, i, itp. split; [reflexivity|]. split; [|exact Hin]. apply without_lookup. split; [exact Hp|]. destruct (Q p) eqn:E; [|reflexivity]. rewrite (HQ p _ E (below_child p i)) in Hj. discriminate Hj.
Qed.
(** What is below an item that is there is in the tree of one of its children. *)
Lemma below_children m k itk j it : closed m -> m !! k = Some itk -> m !! j = Some it -> below k j -> exists c, c ∈ i_children itk /\ in_tree c j.
Proof.
  intros Hc Hk. remember (length j) as n eqn:En. assert (Hn : length j <= n) by lia. clear En. revert j it Hn. induction n as [|n IH]; intros j it Hn Hj Hb; [pose proof (below_longer _ _ Hb); lia|].
  destruct (Hc _ _ Hj) as [[Hd|(p & i & itp & -> & Hp & Hin)] _].
  { exfalso. destruct Hb as [r ->]. apply Hd. apply elem_of_app. right. left. }
  destruct (above_child _ _ _ Hb) as [<-|Hb'].
  - rewrite Hk in Hp. injection Hp as ->. eexists. split; [exact Hin|left; reflexivity].
  - pose proof (below_longer _ _ (below_child p i)). destruct (IH p itp ltac:(lia) Hp Hb') as (c & Hcin & Ht). exists c. split; [exact Hcin|]. right. destruct Ht as [->|Ht]; [apply below_child|eapply below_trans; [exact Ht|apply below_child]].
Qed.
(** Nothing is below an item that is not there. *)
Lemma below_absent m k j it : closed m -> m !! k = None -> m !! j = Some it -> ~ below k j.
Proof.
  intros Hc Hk. remember (length j) as n eqn:En. assert (Hn : length j <= n) by lia. clear En. revert j it Hn. induction n as [|n IH]; intros j it Hn Hj Hb; [pose proof (below_longer _ _ Hb); lia|].
  destruct (Hc _ _ Hj) as [[Hd|(p & i & itp & -> & Hp & Hin)] _].
  { destruct Hb as [r ->]. apply Hd. apply elem_of_app. right. left. }
  destruct (above_child _ _ _ Hb) as [<-|Hb']; [congruence|]. pose proof (below_longer _ _ (below_child p i)). exact (IH p itp ltac:(lia) Hp Hb').
Qed.

Definition weight (k : str) (m : gmap str item) : nat := size (without (fun j => negb (inb k j)) m).
Lemma inb_true k j : inb k j = true <-> in_tree k j.
Proof. unfold inb. apply bool_decide_eq_true. Qed.
Lemma weight_lookup k m j it : without (fun j => negb (inb k j)) m !! j = Some it <-> m !! j = Some it /\ in_tree k j.
Proof. rewrite without_lookup, negb_false_iff, inb_true. reflexivity. Qed.
Lemma weight_sub k m Q : weight k (without Q m) <= weight k m.
Proof.
  unfold weight. rewrite <- !(size_dom (D := gset str)). apply subseteq_size. intros j. rewrite !elem_of_dom. intros [it H]. apply weight_lookup in H as [H Ht]. apply without_lookup in H as [H _]. exists it. apply weight_lookup. auto.
Qed.
Lemma weight_child k m c itk : m !! k = Some itk -> below k c -> S (weight c m) <= weight k m.
Proof.
  intros Hk Hb. unfold weight. rewrite <- !size_dom.
  apply (subset_size (C := gset str)). split.
  - intros j. rewrite !elem_of_dom. intros [it H]. apply weight_lookup in H as [H Ht]. exists it. apply weight_lookup. split; [exact H|]. right. destruct Ht as [->|Ht]; [exact Hb|eapply below_trans; [exact Hb|exact Ht]].
  - intros Hsub. assert (H : k ∈ dom (without (fun j => negb (inb c j)) m)).
    { apply Hsub. apply elem_of_dom. exists itk. apply weight_lookup. split; [exact Hk|left; reflexivity]. }
    apply elem_of_dom in H as [it H]. apply weight_lookup in H as [_ [->|H]]; [exact (below_irrefl _ Hb)|]. apply (below_irrefl k). eapply below_trans; [exact Hb|exact H].
Qed.

(** With enough fuel a tree goes completely, and nothing else. *)
Lemma remove_tree_all fuel k m : closed m -> S (weight k m) <= fuel -> remove_tree fuel k m = without (inb k) m.
Proof.
  revert k m. induction fuel as [|f IH]; intros k m Hc Hf; [lia|]. cbn [remove_tree].
  assert (Hfold : forall l m', closed m' -> (forall c, c ∈ l -> S (weight c m') <= f) -> fold_left (fun m ck => remove_tree f ck m) l m' = without (fun j => existsb (fun c => inb c j) l) m').
  { induction l as [|c l IHl]; intros m' Hc' Hf'.
    - cbn [fold_left existsb]. symmetry. apply map_eq. intros j. apply option_eq. intros it. rewrite without_lookup. tauto.
    - cbn [fold_left existsb]. rewrite IH; [|exact Hc'|apply Hf'; left]. rewrite IHl.
      + rewrite without_without. reflexivity.
      + apply closed_without; [exact Hc'|]. intros a j Ha Hb. apply inb_true in Ha. apply inb_true. right. destruct Ha as [->|Ha]; [exact Hb|eapply below_trans; eassumption].
      + intros c' Hin. etransitivity; [apply le_n_S, weight_sub|]. apply Hf'. right. exact Hin. }
  destruct (m !! k) as [itk|] eqn:Ek.
  - rewrite Hfold; [|exact Hc|].
    + apply map_eq. intros j. apply option_eq. intros it. rewrite lookup_delete_Some, !without_lookup. split.
      * intros (Hne & Hj & Hno). split; [exact Hj|]. destruct (inb k j) eqn:E; [|reflexivity]. apply inb_true in E as [->|E]; [congruence|].
        destruct (below_children _ _ _ _ _ Hc Ek Hj E) as (c & Hin & Ht). assert (existsb (fun c => inb c j) (i_children itk) = true); [|congruence].
        apply existsb_exists. exists c. split; [apply elem_of_list_In; exact Hin|apply inb_true; exact Ht].
      * intros [Hj Hno]. split; [intros ->; assert (inb j j = true) by (apply inb_true; left; reflexivity); congruence|]. split; [exact Hj|].
        destruct (existsb (fun c => inb c j) (i_children itk)) eqn:E; [|reflexivity]. exfalso. apply existsb_exists in E as (c & Hin & Ht). apply elem_of_list_In in Hin. destruct (Hc _ _ Ek) as [_ H2]. destruct (H2 _ Hin) as [i ->].
        apply inb_true in Ht. assert (inb k j = true); [|congruence]. apply inb_true. right. destruct Ht as [->|Ht]; [apply below_child|eapply below_trans; [apply below_child|exact Ht]].
    + intros c Hin. destruct (Hc _ _ Ek) as [_ H2]. destruct (H2 _ Hin) as [i ->]. pose proof (weight_child k m _ itk Ek (below_child k i)). lia.
  - apply map_eq. intros j. apply option_eq. intros it. rewrite lookup_delete_Some, without_lookup. split.
    + intros [Hne Hj]. split; [exact Hj|]. destruct (inb k j) eqn:E; [|reflexivity]. apply inb_true in E as [->|E]; [congruence|]. exfalso. exact (below_absent _ _ _ _ Hc Ek Hj E).
    + intros [Hj _]. split; [congruence|exact Hj].
Qed.
Lemma weight_size k m : weight k m <= size m.
Proof. unfold weight. rewrite <- !(size_dom (D := gset str)). apply subseteq_size. intros j. rewrite !elem_of_dom. intros [it H]. apply weight_lookup in H as [H _]. eauto. Qed.
(** The message that clears the children of an item. *)
Definition no_children (x : item) : item := Item (i_lines x) (i_started x) (i_done x) (i_err x) [].
Lemma clear_lookup v k j : closed (v_items v) ->
  v_items (handle v (MClear k)) !! j = if belowb k j then None else if decide (j = k) then no_children <$> v_items v !! k else v_items v !! j.
Proof.
  intros Hc. cbn [handle]. destruct (v_items v !! k) as [x|] eqn:Ek.
  - assert (Hfold : forall l m', closed m' -> size m' <= size (v_items v) -> fold_left (fun m ck => remove_tree (S (size (v_items v))) ck m) l m' = without (fun j => existsb (fun c => inb c j) l) m').
    { induction l as [|c l IHl]; intros m' Hc' Hs.
      - cbn [fold_left existsb]. symmetry. apply map_eq. intros i. apply option_eq. intros y. rewrite without_lookup. tauto.
      - cbn [fold_left existsb]. rewrite remove_tree_all; [|exact Hc'|pose proof (weight_size c m'); lia]. rewrite IHl; [rewrite without_without; reflexivity| |].
        + apply closed_without; [exact Hc'|]. intros a i Ha Hb. apply inb_true in Ha. apply inb_true. right. destruct Ha as [->|Ha]; [exact Hb|eapply below_trans; eassumption].
        + etransitivity; [|exact Hs]. rewrite <- !(size_dom (D := gset str)). apply subseteq_size. intros i. rewrite !elem_of_dom. intros [y H]. apply without_lookup in H as [H _]. eauto. }
    rewrite Hfold by (exact Hc || lia).
    assert (HQ : without (fun j => existsb (fun c => inb c j) (i_children x)) (v_items v) = without (belowb k) (v_items v)).
    { apply without_ext. intros i y Hi. apply eq_bool_prop_intro. split; intros H; apply Is_true_true; apply Is_true_true in H.
      - apply existsb_exists in H as (c & Hin & Ht). apply elem_of_list_In in Hin. destruct (Hc _ _ Ek) as [_ H2]. destruct (H2 _ Hin) as [n ->]. apply belowb_spec. apply inb_true in Ht as [->|Ht]; [apply below_child|eapply below_trans; [apply below_child|exact Ht]].
      - apply belowb_spec in H. destruct (below_children _ _ _ _ _ Hc Ek Hi H) as (c & Hin & Ht). apply existsb_exists. exists c. split; [apply elem_of_list_In; exact Hin|apply inb_true; exact Ht]. }
    rewrite HQ. assert (Hkk : belowb k k = false) by (destruct (belowb k k) eqn:E; [apply belowb_spec, below_irrefl in E as []|reflexivity]).
    assert (E : without (belowb k) (v_items v) !! k = Some x) by (apply without_lookup; auto). rewrite E. cbn [v_items]. destruct (decide (j = k)) as [->|Hne].
    + rewrite lookup_insert, Hkk. reflexivity.
    + rewrite lookup_insert_ne by congruence. destruct (belowb k j) eqn:Eb.
      * destruct (without _ _ !! j) as [y|] eqn:Ey; [|reflexivity]. apply without_lookup in Ey as [_ Ey]. congruence.
      * apply option_eq. intros y. rewrite without_lookup. tauto.
  - destruct (belowb k j) eqn:Eb.
    + destruct (v_items v !! j) as [y|] eqn:Ey; [|reflexivity]. apply belowb_spec in Eb. exfalso. exact (below_absent _ _ _ _ Hc Ek Ey Eb).
    + destruct (decide (j = k)) as [->|]; [rewrite Ek; reflexivity|reflexivity].
Qed.

(** ** Orderly messages *)
Definition shape (v : display) (P : list str) : Prop := closed (v_items v) /\ forall k, k ∈ P <-> is_Some (v_items v !! k).
(** Changing a record but not its children keeps the shape. *)
Lemma shape_update v P k x y : shape v P -> v_items v !! k = Some x -> i_children y = i_children x -> closed (<[k := y]> (v_items v)) /\ forall j, j ∈ P <-> is_Some (<[k := y]> (v_items v) !! j).
Proof.
  intros [Hc HP] Hk Hy. split.
  - intros j it Hj. assert (Hj' : exists it', v_items v !! j = Some it' /\ i_children it' = i_children it).
    { destruct (decide (k = j)) as [<-|Hne]; [rewrite lookup_insert in Hj; injection Hj as <-; eauto|rewrite lookup_insert_ne in Hj by exact Hne; eauto]. }
    destruct Hj' as (it' & Hj' & Ech). destruct (Hc _ _ Hj') as [H1 H2]. rewrite Ech in H2. split; [|exact H2]. destruct H1 as [H1|(p & i & itp & E & Hp & Hin)]; [left; exact H1|right]. exists p, i.
    destruct (decide (k = p)) as [<-|Hne]; [rewrite lookup_insert; exists y; rewrite Hk in Hp; injection Hp as <-; rewrite Hy; auto|rewrite lookup_insert_ne by exact Hne; eauto].
  - intros j. rewrite HP. destruct (decide (k = j)) as [<-|Hne]; [rewrite lookup_insert, Hk; split; eauto|rewrite lookup_insert_ne by exact Hne; reflexivity].
Qed.

Lemma shape_step v P m : shape v P -> orderly P [m] -> shape (handle v m) (there P [m]).
Proof.
  intros Hs Ho. pose proof Hs as [Hc HP]. destruct m as [key parent|key|key line|key e|key| |]; cbn [there orderly] in *; try (cbn [handle]; exact Hs).
  - destruct Ho as ([j Ej] & Hne & Hin & Hnot & _). apply HP in Hin as [p Hp].
    assert (Hk : v_items v !! key = None). { destruct (v_items v !! key) eqn:E; [|reflexivity]. exfalso. apply Hnot, HP. eauto. }
    assert (Hdiff : key <> parent) by congruence. cbn [handle]. destruct parent as [|pc pr]; [congruence|]. set (parent := pc :: pr) in *. rewrite lookup_insert_ne by exact Hdiff. rewrite Hp. unfold shape. cbn [v_items]. split.
    + intros i it Hi. destruct (decide (parent = i)) as [<-|Hpi].
      * rewrite lookup_insert in Hi. injection Hi as <-. destruct (Hc _ _ Hp) as [H1 H2]. split.
        -- destruct H1 as [H1|(q & n & itq & E & Hq & Hqin)]; [left; exact H1|right]. exists q, n. assert (parent <> q) by (intros E1; apply (f_equal length) in E; rewrite E1 in E; rewrite app_length in E; simpl in E; lia).
           exists itq. split; [exact E|]. split; [|exact Hqin]. rewrite !lookup_insert_ne by congruence. exact Hq.
        -- cbn [i_children]. intros c Hcin. apply elem_of_app in Hcin as [Hcin|Hcin]; [exact (H2 _ Hcin)|]. apply elem_of_list_singleton in Hcin as ->. exists j. exact Ej.
      * rewrite lookup_insert_ne in Hi by exact Hpi. destruct (decide (key = i)) as [<-|Hki].
        -- rewrite lookup_insert in Hi. injection Hi as <-. split; [|intros c Hcin; apply elem_of_nil in Hcin as []]. right. exists parent, j. eexists. split; [exact Ej|]. split; [apply lookup_insert|]. cbn [i_children]. apply elem_of_app. right. left.
        -- rewrite lookup_insert_ne in Hi by exact Hki. destruct (Hc _ _ Hi) as [H1 H2]. split; [|exact H2]. destruct H1 as [H1|(q & n & itq & E & Hq & Hqin)]; [left; exact H1|right]. exists q, n.
           destruct (decide (parent = q)) as [<-|Hpq].
           ++ rewrite lookup_insert. rewrite Hp in Hq. injection Hq as <-. eexists. split; [exact E|]. split; [reflexivity|]. cbn [i_children]. apply elem_of_app. left. exact Hqin.
           ++ rewrite lookup_insert_ne by exact Hpq. assert (key <> q) by congruence. rewrite lookup_insert_ne by assumption. eauto.
    + intros i. rewrite elem_of_cons, HP. destruct (decide (parent = i)) as [<-|Hpi]; [rewrite lookup_insert, Hp; split; eauto|]. rewrite lookup_insert_ne by exact Hpi.
      destruct (decide (key = i)) as [<-|Hki]; [rewrite lookup_insert; split; eauto|]. rewrite lookup_insert_ne by exact Hki. split; [intros [?|?]; [congruence|assumption]|auto].
  - cbn [handle]. destruct (v_items v !! key) as [x|] eqn:E; [|exact Hs]. apply (shape_update v P key x); [exact Hs|exact E|reflexivity].
  - cbn [handle]. destruct (v_items v !! key) as [x|] eqn:E; [|exact Hs]. apply (shape_update v P key x); [exact Hs|exact E|reflexivity].
  - cbn [handle]. destruct (v_items v !! key) as [x|] eqn:E; [|exact Hs]. apply (shape_update v P key x); [exact Hs|exact E|reflexivity].
  - split.
    + intros i it Hi. rewrite (clear_lookup v key i Hc) in Hi. destruct (belowb key i) eqn:Eb; [discriminate Hi|].
      assert (Hi' : exists it', v_items v !! i = Some it' /\ forall c, c ∈ i_children it -> c ∈ i_children it').
      { destruct (decide (i = key)) as [->|]; [|eauto]. apply fmap_Some in Hi as (x & Hx & ->). exists x. split; [exact Hx|]. intros c Hcin. apply elem_of_nil in Hcin as []. }
      destruct Hi' as (it' & Hi' & Hsub). destruct (Hc _ _ Hi') as [H1 H2]. split; [|intros c Hcin; apply H2, Hsub, Hcin].
      destruct H1 as [H1|(q & n & itq & E & Hq & Hqin)]; [left; exact H1|right]. exists q, n.
      assert (Hqb : belowb key q = false). { destruct (belowb key q) eqn:Eq; [|reflexivity]. apply belowb_spec in Eq. assert (belowb key i = true); [|congruence]. apply belowb_spec. eapply below_trans; [exact Eq|]. rewrite E. apply below_child. }
      assert (Hqk : q <> key). { intros ->. assert (belowb key i = true); [|congruence]. apply belowb_spec. rewrite E. apply below_child. }
      exists itq. split; [exact E|]. split; [|exact Hqin]. rewrite (clear_lookup v key q Hc), Hqb, decide_False by exact Hqk. exact Hq.
    + intros i. rewrite (clear_lookup v key i Hc). rewrite elem_of_list_In, filter_In, <- elem_of_list_In, HP. destruct (belowb key i); simpl; [split; [intros [_ H]; discriminate H|intros [x Hx]; discriminate Hx]|].
      destruct (decide (i = key)) as [->|]; [rewrite fmap_is_Some|]; tauto.
Qed.
Lemma orderly_app P a b : orderly P (a ++ b) <-> orderly P a /\ orderly (there P a) b.
Proof. revert P. induction a as [|[] a IH]; intros P; simpl; try (rewrite IH; tauto); try tauto. Qed.
Lemma there_app P a b : there P (a ++ b) = there (there P a) b.
Proof. revert P. induction a as [|[] a IH]; intros P; simpl; auto. Qed.
Lemma shape_all v P ms : shape v P -> orderly P ms -> shape (handle_all v ms) (there P ms).
Proof.
  intros H. induction ms as [|m ms IH] using rev_ind; [auto|]. intros Ho. apply orderly_app in Ho as [Ho1 Ho2]. rewrite handle_all_snoc, there_app. apply shape_step; [exact (IH Ho1)|exact Ho2].
Qed.
Definition roots (n : nat) : list str := map item_key (seq 0 n).
Lemma roots_spec n k : k ∈ roots n <-> exists i, i < n /\ k = item_key i.
Proof.
  unfold roots. rewrite elem_of_list_In, in_map_iff. split; intros (i & H1 & H2); exists i; [apply in_seq in H2; split; [lia|congruence]|split; [congruence|apply in_seq; lia]].
Qed.
Lemma shape_new n max : shape (new_display n max) (roots n).
Proof.
  split.
  - intros j it Hj. apply new_items in Hj as [-> (i & Hi & ->)]. split; [left; apply itoa_no_dot|]. intros c Hc. apply elem_of_nil in Hc as [].
  - intros k. rewrite roots_spec. split; [intros (i & Hi & ->); apply new_items_all; exact Hi|]. intros [it H]. apply new_items in H as [_ H]. exact H.
Qed.
Lemma there_spec P ms k : k ∈ there P ms <->
  (k ∈ P /\ forall a, MClear a ∈ ms -> ~ below a k) \/ exists pre p post, ms = pre ++ MRegister k p :: post /\ forall a, MClear a ∈ post -> ~ below a k.
Proof.
  revert P. induction ms as [|m ms IH]; intros P.
  - simpl. split; [intros H; left; split; [exact H|]; intros a Ha; apply elem_of_nil in Ha as []|]. intros [[H _]|(pre & p & post & E & _)]; [exact H|]. destruct pre; discriminate E.
  - assert (Hskip : forall P' : list str, (forall x, x ∈ P' <-> x ∈ P /\ (forall a, m = MClear a -> ~ below a x)) -> (forall x p, m <> MRegister x p) ->
      (k ∈ P' /\ (forall a, MClear a ∈ ms -> ~ below a k)) \/ (exists pre p post, ms = pre ++ MRegister k p :: post /\ forall a, MClear a ∈ post -> ~ below a k) <->
      (k ∈ P /\ forall a, MClear a ∈ m :: ms -> ~ below a k) \/ exists pre p post, m :: ms = pre ++ MRegister k p :: post /\ forall a, MClear a ∈ post -> ~ below a k).
    { intros P' HP' Hm. split.
      - intros [[H1 H2]|(pre & p & post & -> & H)].
        + apply HP' in H1 as [H1 H3]. left. split; [exact H1|]. intros a Ha. apply elem_of_cons in Ha as [Ha|Ha]; [apply H3; congruence|exact (H2 _ Ha)].
        + right. exists (m :: pre), p, post. auto.
      - intros [[H1 H2]|(pre & p & post & E & H)].
        + left. split; [apply HP'; split; [exact H1|]; intros a ->; apply H2; left|]. intros a Ha. apply H2. right. exact Ha.
        + right. destruct pre as [|m0 pre]; [exfalso; injection E as E _; exact (Hm _ _ E)|]. injection E as _ ->. eauto. }
    destruct m as [key parent|key|key line|key e|key| |]; cbn [there]; rewrite IH.
    + split.
      * intros [[H1 H2]|(pre & p & post & -> & H)].
        -- apply elem_of_cons in H1 as [->|H1].
           ++ right. exists [], parent, ms. auto.
           ++ left. split; [exact H1|]. intros a Ha. apply elem_of_cons in Ha as [Ha|Ha]; [discriminate Ha|exact (H2 _ Ha)].
        -- right. exists (MRegister key parent :: pre), p, post. auto.
      * intros [[H1 H2]|(pre & p & post & E & H)].
        -- left. split; [right; exact H1|]. intros a Ha. apply H2. right. exact Ha.
        -- destruct pre as [|m0 pre].
           ++ injection E as -> -> ->. left. split; [left|exact H].
           ++ injection E as _ ->. right. eauto.
    + apply Hskip; [intros x; split; [intros H; split; [exact H|discriminate]|tauto]|discriminate].
    + apply Hskip; [intros x; split; [intros H; split; [exact H|discriminate]|tauto]|discriminate].
    + apply Hskip; [intros x; split; [intros H; split; [exact H|discriminate]|tauto]|discriminate].
    + apply Hskip; [|discriminate]. intros x. rewrite elem_of_list_In, filter_In, <- elem_of_list_In, negb_true_iff. split; intros [H1 H2]; (split; [exact H1|]).
      * intros a E. injection E as <-. intros Hb. apply belowb_spec in Hb. congruence.
      * destruct (belowb key x) eqn:Eb; [|reflexivity]. apply belowb_spec in Eb. exfalso. exact (H2 _ eq_refl Eb).
    + apply Hskip; [intros x; split; [intros H; split; [exact H|discriminate]|tauto]|discriminate].
    + apply Hskip; [intros x; split; [intros H; split; [exact H|discriminate]|tauto]|discriminate].
Qed.
