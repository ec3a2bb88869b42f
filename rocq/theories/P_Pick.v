(** Theorems about the interactive picker: C43, C44. *)
From Verif Require Import Base StrOrder Types_Model Vars_Proof P_Run Pick_Model Pick_Spec Pick_Proof.
Local Open Scope Z_scope.

(** ** C44 *)
Section C44.
  Context (f : fuzzy) (mt : str -> str -> option (list nat * Z)) (Hmt : matcher f mt).

  Lemma search_perm q tasks : q <> [] -> search f q tasks ≡ₚ unsorted f q tasks.
  Proof. intros Hq. unfold search. destruct q; [congruence|]. apply merge_sort_Permutation. Qed.

  (** Exactly the tasks that are found, each with its score. *)
  Theorem C44_sound q tasks m : q <> [] -> m ∈ search f q tasks -> m_task m ∈ tasks /\ found mt q (m_task m) (m_score m).
  Proof.
    intros Hq H. rewrite search_perm in H by exact Hq. apply unsorted_elem in H as (i & t & Ht & E). pose proof (the_match_found f mt Hmt q Hq tasks i t Ht) as Hf. rewrite E in Hf. rewrite (the_match_task _ _ _ _ _ _ E).
    split; [eapply elem_of_list_lookup_2; exact Ht|exact Hf].
  Qed.
  Theorem C44_complete q tasks t sc : q <> [] -> t ∈ tasks -> found mt q t sc -> exists m, m ∈ search f q tasks /\ m_task m = t.
  Proof.
    intros Hq Hin Hf. apply elem_of_list_lookup_1 in Hin as [i Ht]. pose proof (the_match_found f mt Hmt q Hq tasks i t Ht) as H. destruct (the_match _ _ _ i t) as [m|] eqn:E; [|exfalso; exact (H _ Hf)].
    exists m. split; [|exact (the_match_task _ _ _ _ _ _ E)]. rewrite search_perm by exact Hq. apply unsorted_elem. eauto.
  Qed.
  (** To be found is to match by name or by some alias. *)
  Lemma best_alias q (l : list str) : (exists a, a ∈ l /\ is_Some (mt q a)) -> exists a idx sc, a ∈ l /\ mt q a = Some (idx, sc) /\ forall b idx' sc', b ∈ l -> mt q b = Some (idx', sc') -> sc' <= sc.
  Proof.
    induction l as [|x l IH]; intros (a & Ha & Hm); [apply elem_of_nil in Ha as []|].
    destruct (decide (Exists (fun b => is_Some (mt q b)) l)) as [Hex|Hex].
    - apply Exists_exists in Hex as (b & Hb & Hmb). destruct IH as (c & idx & sc & Hc & Ec & Hbest); [eauto|]. destruct (mt q x) as [[xi xs]|] eqn:Ex.
      + destruct (Z.le_gt_cases xs sc) as [Hle|Hgt].
        * exists c, idx, sc. split; [right; exact Hc|]. split; [exact Ec|]. intros d i' s' Hd Ed. apply elem_of_cons in Hd as [->|Hd]; [congruence|eauto].
        * exists x, xi, xs. split; [left|]. split; [exact Ex|]. intros d i' s' Hd Ed. apply elem_of_cons in Hd as [->|Hd]; [assert (s' = xs) by congruence; lia|]. specialize (Hbest _ _ _ Hd Ed). lia.
      + exists c, idx, sc. split; [right; exact Hc|]. split; [exact Ec|]. intros d i' s' Hd Ed. apply elem_of_cons in Hd as [->|Hd]; [congruence|eauto].
    - assert (a = x) as ->. { apply elem_of_cons in Ha as [Ha|Ha]; [exact Ha|]. exfalso. apply Hex. apply Exists_exists. eauto. }
      destruct Hm as [[xi xs] Ex]. exists x, xi, xs. split; [left|]. split; [exact Ex|]. intros d i' s' Hd Ed. apply elem_of_cons in Hd as [->|Hd]; [assert (s' = xs) by congruence; lia|]. exfalso. apply Hex. apply Exists_exists. eauto.
  Qed.
  Theorem C44_by_name_or_alias q t : (exists sc, found mt q t sc) <->
    q ∈ get_all_aliases t \/ (exists a, a ∈ get_all_aliases t /\ is_Some (mt q a)) \/ is_Some (mt q (t_name t)).
  Proof.
    split.
    - intros [sc Hf]. inversion Hf; subst; [left; assumption|right; left; eauto|right; right; eauto].
    - intros H. destruct (decide (q ∈ get_all_aliases t)) as [Hin|Hno]; [eexists; apply found_exact; exact Hin|].
      destruct (decide (Exists (fun a => is_Some (mt q a)) (get_all_aliases t))) as [Hex|Hex].
      + apply Exists_exists in Hex. destruct (best_alias q _ Hex) as (a & idx & sc & Ha & Em & Hb). eexists. eapply found_alias; eassumption.
      + destruct H as [H|[H|[[idx sc] H]]]; [contradiction|exfalso; apply Hex; apply Exists_exists; exact H|]. exists sc. apply (found_name _ _ _ idx); [exact Hno| |exact H].
        intros a Ha. destruct (mt q a) eqn:E; [|reflexivity]. exfalso. apply Hex. apply Exists_exists. exists a. eauto.
  Qed.
  Theorem C44_each_once q tasks : NoDup tasks -> NoDup (map m_task (search f q tasks)).
  Proof.
    intros Hnd. destruct (decide (q = [])) as [->|Hq].
    - simpl. rewrite map_map. simpl. rewrite map_id. exact Hnd.
    - assert (Hp : map m_task (search f q tasks) ≡ₚ map m_task (unsorted f q tasks)) by (apply Permutation_map, search_perm, Hq). rewrite Hp, (unsorted_tasks f q tasks). eapply sublist_NoDup; [apply sublist_tasks|exact Hnd].
  Qed.
  Theorem C44_ordered q tasks : q <> [] -> StronglySorted before (map (fun m => (m_task m, m_score m)) (search f q tasks)).
  Proof.
    intros Hq. apply (StronglySorted_fmap _ match_le); [|unfold search; destruct q; [congruence|]; apply StronglySorted_merge_sort; apply _].
    intros a b H. unfold before, match_le in *. simpl. destruct H as [H|H]; [left; lia|right; exact H].
  Qed.
  (** [sort.Slice] has no choice: names tell the matches apart. *)
  Theorem C44_determined q tasks out : q <> [] -> NoDup (map t_name tasks) -> out ≡ₚ unsorted f q tasks -> StronglySorted match_le out -> out = search f q tasks.
  Proof.
    intros Hq Hnd Hp Hs. symmetry. apply (sorted_unique match_le).
    - intros x y Hx Hy H1 H2. rewrite search_perm in Hx, Hy by exact Hq. apply unsorted_elem in Hx as (i & t & Ht & E), Hy as (j & u & Hu & E').
      assert (Hn : t_name t = t_name u). { unfold match_le in *. rewrite <- (the_match_task _ _ _ _ _ _ E), <- (the_match_task _ _ _ _ _ _ E'). destruct H1 as [H1|[E1 H1]], H2 as [H2|[E2 H2]]; [lia|lia|lia|]. apply str_le_antisym; assumption. }
      assert (i = j) as ->. { apply (NoDup_lookup (map t_name tasks) i j (t_name t)); [exact Hnd|rewrite list_lookup_fmap, Ht; reflexivity|rewrite list_lookup_fmap, Hu; simpl; congruence]. }
      congruence.
    - unfold search. destruct q; [congruence|]. apply StronglySorted_merge_sort; apply _.
    - exact Hs.
    - rewrite search_perm by exact Hq. symmetry. exact Hp.
  Qed.
End C44.

(** All tasks, by name; the order of the map does not matter. *)
Lemma map_tasks (tasks : taskmap) order t : iteration_order tasks order -> t ∈ omap (fun n => tasks !! n) order <-> exists n, tasks !! n = Some t.
Proof.
  intros Ho. rewrite elem_of_list_omap. split; [intros (n & _ & H); eauto|]. intros [n H]. exists n. split; [|exact H]. eapply iteration_order_elem; [exact Ho|eauto].
Qed.
Theorem C44_all_by_name f tasks order : keyed tasks -> iteration_order tasks order ->
  map m_task (k_matches (new_picker f tasks order)) = k_tasks (new_picker f tasks order) /\
  StronglySorted (fun a b => str_le (t_name a) (t_name b)) (k_tasks (new_picker f tasks order)) /\ NoDup (k_tasks (new_picker f tasks order)) /\
  forall t, t ∈ k_tasks (new_picker f tasks order) <-> exists n, tasks !! n = Some t.
Proof.
  intros Hk Ho. simpl. split; [rewrite map_map; apply map_id|]. split; [apply (StronglySorted_merge_sort name_le)|].
  assert (Hnd : NoDup order) by (unfold iteration_order in Ho; rewrite Ho; apply NoDup_fst_map_to_list; apply _).
  split; [|intros t; rewrite merge_sort_Permutation; apply map_tasks; exact Ho]. rewrite merge_sort_Permutation.
  assert (Hall : Forall (fun n => True) order) by (apply Forall_forall; auto). clear Ho Hall. induction order as [|n order IH]; [constructor|]. apply NoDup_cons in Hnd as [Hn Hnd]. simpl. destruct (tasks !! n) as [t|] eqn:E; [|exact (IH Hnd)].
  apply NoDup_cons. split; [|exact (IH Hnd)]. intros H. apply elem_of_list_omap in H as (n' & Hin & E'). apply Hn. rewrite <- (Hk _ _ E), (Hk _ _ E'). exact Hin.
Qed.
Theorem C44_map_order f tasks o1 o2 : keyed tasks -> iteration_order tasks o1 -> iteration_order tasks o2 -> new_picker f tasks o1 = new_picker f tasks o2.
Proof.
  intros Hk H1 H2. unfold new_picker. assert (E : merge_sort name_le (omap (fun n => tasks !! n) o1) = merge_sort name_le (omap (fun n => tasks !! n) o2)); [|rewrite E; reflexivity].
  apply (sorted_unique name_le); [|apply (StronglySorted_merge_sort name_le)|apply (StronglySorted_merge_sort name_le)|].
  - intros x y Hx Hy Hxy Hyx. rewrite merge_sort_Permutation in Hx, Hy. apply map_tasks in Hx as [n Hn], Hy as [m Hm]; [|exact H1|exact H1]. pose proof (Hk _ _ Hn). pose proof (Hk _ _ Hm).
    assert (t_name x = t_name y) by (apply str_le_antisym; assumption). congruence.
  - rewrite !merge_sort_Permutation. unfold iteration_order in H1, H2. rewrite H1, H2. reflexivity.
Qed.

(** ** C43 *)
Definition pick_inv (f : fuzzy) (m : picker) : Prop :=
  let total := Z.of_nat (length (k_matches m)) in
  k_matches m = search f (k_query m) (k_tasks m) /\
  0 <= k_cursor m < Z.max 1 total /\
  0 <= k_offset m <= k_cursor m /\ k_cursor m < k_offset m + visible_lines m /\ k_offset m <= Z.max 0 (total - visible_lines m).

Lemma adjust_inv f m : k_matches m = search f (k_query m) (k_tasks m) -> 0 <= k_cursor m < Z.max 1 (Z.of_nat (length (k_matches m))) -> 0 <= k_offset m -> pick_inv f (adjust_scroll m).
Proof.
  intros Hm Hc Ho. unfold pick_inv, adjust_scroll, visible_lines. cbn [k_query k_tasks k_matches k_cursor k_offset k_height]. split; [exact Hm|]. split; [exact Hc|].
  set (v := Z.max 1 (k_height m - 4)). assert (1 <= v) by lia. clearbody v. set (tot := Z.of_nat (length (k_matches m))) in *. clearbody tot. destruct (Z.ltb_spec (k_cursor m) (k_offset m)); [lia|]. destruct (Z.leb_spec (k_offset m + v) (k_cursor m)); lia.
Qed.
Lemma pick_step f e m : pick_inv f m -> pick_inv f (pick_update f e m).
Proof.
  intros (I1 & I2 & I3 & I4 & I5). destruct e; cbn [pick_update].
  - exact (conj I1 (conj I2 (conj I3 (conj I4 I5)))).
  - exact (conj I1 (conj I2 (conj I3 (conj I4 I5)))).
  - apply adjust_inv; cbn [k_query k_tasks k_matches k_cursor k_offset]; [exact I1|lia|lia].
  - apply adjust_inv; cbn [k_query k_tasks k_matches k_cursor k_offset]; [exact I1|lia|lia].
  - unfold pick_inv, set_query, visible_lines. cbn [k_query k_tasks k_matches k_cursor k_offset k_height]. split; [reflexivity|]. lia.
  - apply adjust_inv; cbn [k_query k_tasks k_matches k_cursor k_offset]; [exact I1|lia|lia].
  - destruct (decide _); [unfold pick_inv; auto|]. unfold pick_inv, set_query, visible_lines. cbn [k_query k_tasks k_matches k_cursor k_offset k_height]. split; [reflexivity|]. lia.
Qed.
Lemma pick_reach f tasks order es : pick_inv f (pick_all f (new_picker f tasks order) es).
Proof.
  induction es as [|e es IH] using rev_ind; [|unfold pick_all; rewrite fold_left_app; apply pick_step; exact IH].
  unfold pick_inv, visible_lines. simpl. split; [reflexivity|]. lia.
Qed.

(** The cursor is on a match that is drawn, if there are any; the window starts at
    the top or is full. *)
Theorem C43_cursor_is_drawn f tasks order es : let m := pick_all f (new_picker f tasks order) es in
  k_matches m <> [] -> exists x, k_matches m !! Z.to_nat (k_cursor m) = Some x /\ drawn m !! Z.to_nat (k_cursor m - k_offset m) = Some x.
Proof.
  intros m Hne. destruct (pick_reach f tasks order es) as (I1 & I2 & I3 & I4 & I5). fold m in I1, I2, I3, I4, I5.
  assert (1 <= length (k_matches m))%nat by (destruct (k_matches m); [congruence|simpl; lia]).
  destruct (lookup_lt_is_Some_2 (k_matches m) (Z.to_nat (k_cursor m))) as [x Hx]; [lia|]. exists x. split; [exact Hx|]. unfold drawn. rewrite lookup_take by lia. rewrite lookup_drop.
  replace (Z.to_nat (k_offset m) + Z.to_nat (k_cursor m - k_offset m))%nat with (Z.to_nat (k_cursor m)) by lia. exact Hx.
Qed.
Theorem C43_window f tasks order es : let m := pick_all f (new_picker f tasks order) es in
  Z.of_nat (length (drawn m)) = Z.min (visible_lines m) (Z.of_nat (length (k_matches m))).
Proof.
  intros m. destruct (pick_reach f tasks order es) as (I1 & I2 & I3 & I4 & I5). fold m in I1, I2, I3, I4, I5. unfold drawn. rewrite take_length, drop_length.
  assert (1 <= visible_lines m) by (unfold visible_lines; lia). set (v := visible_lines m) in *. clearbody v. lia.
Qed.
(** What is listed is what the text finds. *)
Theorem C43_matches_belong_to_the_text f tasks order es : let m := pick_all f (new_picker f tasks order) es in
  k_matches m = search f (k_query m) (k_tasks m) /\ k_tasks m = k_tasks (new_picker f tasks order).
Proof.
  intros m. split; [apply pick_reach|]. subst m. induction es as [|e es IH] using rev_ind; [reflexivity|]. unfold pick_all in *. rewrite fold_left_app. cbn [fold_left]. rewrite <- IH. destruct e; try reflexivity. simpl. destruct (decide _); reflexivity.
Qed.

(** The events up to the one that ends the picker decide what it returns. *)
Definition ends (e : pevent) : bool := match e with KCancel | KEnter => true | _ => false end.
Lemma not_ended f m es : forallb (fun e => negb (ends e)) es = true -> k_selected (pick_all f m es) = k_selected m /\ k_quitting (pick_all f m es) = k_quitting m.
Proof.
  revert m. induction es as [|e es IH]; intros m H; [auto|]. simpl in H. apply andb_true_iff in H as [He H]. change (pick_all f m (e :: es)) with (pick_all f (pick_update f e m) es). destruct (IH (pick_update f e m) H) as [-> ->].
  destruct e; try discriminate He; try (split; reflexivity). simpl. destruct (decide _); auto.
Qed.
Theorem C43_cancel_selects_nothing_partial f tasks order es : forallb (fun e => negb (ends e)) es = true ->
  let m' := pick_all f (new_picker f tasks order) (es ++ [KCancel]) in k_selected m' = None /\ k_quitting m' = true.
Proof. intros H m'. unfold m', pick_all. rewrite fold_left_app. split; [apply (not_ended f (new_picker f tasks order) es H)|reflexivity]. Qed.
Theorem C43_enter_selects_the_task_under_the_cursor_partial f tasks order es : forallb (fun e => negb (ends e)) es = true ->
  let m := pick_all f (new_picker f tasks order) es in
  let m' := pick_all f (new_picker f tasks order) (es ++ [KEnter]) in
  k_selected m' = m_task <$> k_matches m !! Z.to_nat (k_cursor m) /\ k_quitting m' = true.
Proof.
  intros H m m'. unfold m', pick_all. rewrite fold_left_app. change (fold_left _ es _) with m. simpl. split; [|reflexivity]. destruct (pick_reach f tasks order es) as (_ & I2 & _). fold m in I2. destruct (Z.ltb_spec (k_cursor m) (Z.of_nat (length (k_matches m)))) as [Hlt|Hge]; [reflexivity|].
  destruct (not_ended f (new_picker f tasks order) es H) as [Hs _]. fold m in Hs. rewrite Hs. rewrite lookup_ge_None_2 by lia. reflexivity.
Qed.
(** Any other event leaves the picker open and nothing selected. *)
Theorem C43_stays_open f tasks order es : forallb (fun e => negb (ends e)) es = true ->
  let m := pick_all f (new_picker f tasks order) es in k_quitting m = false /\ k_selected m = None.
Proof. intros H. destruct (not_ended f (new_picker f tasks order) es H) as [H1 H2]. split; [exact H2|exact H1]. Qed.

(** A matcher: the text itself, case and all. *)
Definition same_text : fuzzy := Fuzzy (fun q l => omap (fun x : nat * str => if decide (x.2 = q /\ q <> []) then Some (x.1, [0%nat], 3) else None) (imap pair l)).
Definition same_mt (q s : str) : option (list nat * Z) := if decide (s = q /\ q <> []) then Some ([0%nat], 3) else None.
Example same_text_matcher : matcher same_text same_mt.
Proof.
  assert (Hel : forall q l i idx sc, (i, idx, sc) ∈ fz_find same_text q l <-> l !! i = Some q /\ q <> [] /\ idx = [0%nat] /\ sc = 3).
  { intros q l i idx sc. simpl. rewrite elem_of_list_omap. split.
    - intros ([j s] & H & E). apply elem_imap_pair in H. simpl in E. destruct (decide _) as [[-> Hq]|]; [|discriminate E]. injection E as <- <- <-. auto.
    - intros (H & Hq & -> & ->). exists (i, q). split; [apply elem_imap_pair; exact H|]. simpl. rewrite decide_True by auto. reflexivity. }
  split.
  - intros q l. simpl. assert (Hf : forall l' : list (nat * str), NoDup (map fst l') -> NoDup (map (fun x : nat * list nat * Z => x.1.1) (omap (fun x : nat * str => if decide (x.2 = q /\ q <> []) then Some (x.1, [0%nat], 3) else None) l'))).
    { induction l' as [|[i s] l' IH]; intros H; [constructor|]. simpl in H. apply NoDup_cons in H as [Hi H]. simpl. destruct (decide _); [|exact (IH H)]. simpl. apply NoDup_cons. split; [|exact (IH H)].
      intros Hx. apply elem_of_list_In, in_map_iff in Hx as ([[j ja] jb] & Ej & Hx). simpl in Ej. subst j. apply elem_of_list_In, elem_of_list_omap in Hx as ([j s'] & Hin & E). simpl in E. destruct (decide _); [|discriminate E]. injection E as -> _ _. apply Hi. apply elem_of_list_In, in_map_iff. exists (i, s'). split; [reflexivity|apply elem_of_list_In; exact Hin]. }
    apply Hf. change (map fst (imap pair l)) with (fst <$> imap pair l). rewrite fmap_imap. replace (imap _ l) with (seq 0 (length l)); [apply NoDup_seq|]. clear. change (imap (fun n => fst ∘ pair n) l) with (imap (fun n (_ : str) => (0 + n)%nat) l). generalize 0%nat. induction l as [|x l IH]; intros n; [reflexivity|]. simpl. rewrite Nat.add_0_r. f_equal. rewrite IH. apply imap_ext. intros i y _. simpl. lia.
  - intros q l i idx sc H. apply Hel in H as (H & Hq & -> & ->). exists q. split; [exact H|]. unfold same_mt. rewrite decide_True by auto. reflexivity.
  - intros q l i s H Hs. unfold same_mt in Hs. destruct (decide (s = q /\ q <> [])) as [[-> Hq]|]; [|destruct Hs as [x Hx]; discriminate Hx]. exists [0%nat], 3. apply Hel. auto.
  - intros q l. apply Sorted_StronglySorted; [intros x y z; lia|]. assert (H : Forall (fun x => x.2 = 3) (fz_find same_text q l)) by (apply Forall_forall; intros [[i idx] sc] Hx; apply Hel in Hx; simpl; tauto).
    revert H. generalize (fz_find same_text q l). intros l'. induction l' as [|x l' IH]; intros H; [constructor|]. inversion H as [|? ? Hx H']; subst. constructor; [exact (IH H')|]. destruct l' as [|y l']; [constructor|]. inversion H'; subst. constructor. lia.
  - intros q Hq. unfold same_mt. rewrite decide_False; [reflexivity|]. intros [E _]. congruence.
Qed.
Definition small (n a : string) : task := Task (lit n) 1 1 [] [] (lit a) [] None None None None [] [] [] [].
Definition three : taskmap := list_to_map [(lit "test", small "test" "t"); (lit "build", small "build" ""); (lit "t2", small "t2" "test")].
Definition three_order : list str := map lit ["t2"; "build"; "test"]%string.
Example C44_met : keyed three /\ iteration_order three three_order /\
  map t_name (k_tasks (new_picker same_text three three_order)) = map lit ["build"; "t2"; "test"]%string /\
  map (fun m => (t_name (m_task m), m_score m)) (search same_text (lit "test") (k_tasks (new_picker same_text three three_order))) = [(lit "t2", 1000); (lit "test", 3)].
Proof.
  split; [|split; [|split; vm_compute; reflexivity]].
  - intros n t H. apply elem_of_list_to_map_2 in H. repeat (apply elem_of_cons in H as [H|H]; [injection H as -> ->; reflexivity|]). apply elem_of_nil in H as [].
  - unfold iteration_order. apply (bool_decide_unpack _). vm_compute. exact Logic.I.
Qed.
Example C43_met : let m := pick_all same_text (new_picker same_text three three_order) [KResize 5; KDown; KDown; KDown] in
  k_cursor m = 2 /\ k_offset m = 2 /\ map (fun m => t_name (m_task m)) (drawn m) = [lit "test"] /\ t_name <$> k_selected (pick_update same_text KEnter m) = Some (lit "test").
Proof. vm_compute. auto. Qed.

(** The key that ends the picker only asks for the end: a key handled before the
    library acts on it still counts. *)
Theorem C43_refuted : exists f tasks order, keyed tasks /\ iteration_order tasks order /\ k_selected (pick_all f (new_picker f tasks order) [KCancel; KEnter]) <> None.
Proof. exists same_text, three, three_order. split; [apply C44_met|]. split; [apply C44_met|]. vm_compute. discriminate. Qed.

Print Assumptions C44_sound.
Print Assumptions C44_complete.
Print Assumptions C44_by_name_or_alias.
Print Assumptions C44_each_once.
Print Assumptions C44_ordered.
Print Assumptions C44_determined.
Print Assumptions C44_all_by_name.
Print Assumptions C44_map_order.
Print Assumptions C43_cursor_is_drawn.
Print Assumptions C43_window.
Print Assumptions C43_matches_belong_to_the_text.
Print Assumptions C43_cancel_selects_nothing_partial.
Print Assumptions C43_enter_selects_the_task_under_the_cursor_partial.
Print Assumptions C43_stays_open.
Print Assumptions C43_refuted.
