(** Lemmas about the picker. *)
From Verif Require Import Base StrOrder Types_Model Vars_Proof Pick_Model Pick_Spec.
Local Open Scope Z_scope.

(** A sorted list is determined by its elements if the order tells them apart. *)
Lemma sorted_unique {A} (R : relation A) l1 l2 : (forall x y, x ∈ l1 -> y ∈ l1 -> R x y -> R y x -> x = y) ->
  StronglySorted R l1 -> StronglySorted R l2 -> l1 ≡ₚ l2 -> l1 = l2.
Proof.
  revert l2. induction l1 as [|x l1 IH]; intros l2 Ha H1 H2 Hp; [apply Permutation_nil in Hp; congruence|].
  destruct l2 as [|y l2]; [symmetry in Hp; apply Permutation_nil in Hp; discriminate Hp|].
  apply StronglySorted_inv in H1 as [H1 F1]. apply StronglySorted_inv in H2 as [H2 F2].
  assert (E : x = y).
  { assert (Hy : y ∈ x :: l1) by (rewrite Hp; left). assert (Hx : x ∈ y :: l2) by (rewrite <- Hp; left).
    apply elem_of_cons in Hy as [E|Hy]; [congruence|]. apply elem_of_cons in Hx as [E|Hx]; [exact E|]. rewrite Forall_forall in F1, F2. apply Ha; [left|right; exact Hy|apply F1; exact Hy|apply F2; exact Hx]. }
  subst y. f_equal. apply Permutation_cons_inv in Hp. apply IH; try assumption. intros a b Ha' Hb'. apply Ha; right; assumption.
Qed.

Lemma sublist_NoDup {A} (l k : list A) : l `sublist_of` k -> NoDup k -> NoDup l.
Proof.
  induction 1 as [|x l k Hs IH|x l k Hs IH]; intros H; [constructor| |]; apply NoDup_cons in H as [Hx H]; [|auto]. apply NoDup_cons. split; [|auto].
  intros Hin. apply Hx. eapply elem_of_submseteq; [exact Hin|]. apply sublist_submseteq. exact Hs.
Qed.

(** ** The orders *)
Global Instance match_le_trans : Transitive match_le.
Proof. intros a b c [H1|[H1 H1']] [H2|[H2 H2']]; unfold match_le; [left; lia|left; lia|left; lia|right]. split; [lia|]. eapply str_le_trans; eassumption. Qed.
Global Instance match_le_total : Total match_le.
Proof.
  intros a b. unfold match_le. destruct (Z.lt_trichotomy (m_score a) (m_score b)) as [H|[H|H]]; [right; left; lia| |left; left; lia].
  destruct (str_le_total (t_name (m_task a)) (t_name (m_task b))) as [Hs|Hs]; [left|right]; right; (split; [lia|exact Hs]).
Qed.
Global Instance name_le_trans : Transitive name_le.
Proof. intros a b c. unfold name_le. apply str_le_trans. Qed.
Global Instance name_le_total : Total name_le.
Proof. intros a b. apply str_le_total. Qed.

(** ** Maps of matches *)
Lemma fold_insert_lookup (l : list (nat * list nat * Z)) (m : gmap nat (list nat * Z)) i idx sc : NoDup (map (fun x => x.1.1) l) ->
  fold_left (fun m x => let '(i, idx, sc) := x in <[i := (idx, sc)]> m) l m !! i = Some (idx, sc) <-> (i, idx, sc) ∈ l \/ ((forall idx' sc', (i, idx', sc') ∉ l) /\ m !! i = Some (idx, sc)).
Proof.
  revert m. induction l as [|[[j jdx] js] l IH]; intros m Hnd; simpl.
  - split; [intros H; right; split; [intros ? ? Hx; apply elem_of_nil in Hx as []|exact H]|]. intros [H|[_ H]]; [apply elem_of_nil in H as []|exact H].
  - simpl in Hnd. apply NoDup_cons in Hnd as [Hj Hnd].
    assert (Hno : forall a b, (j, a, b) ∉ l). { intros a b H. apply Hj. apply elem_of_list_In, in_map_iff. exists (j, a, b). split; [reflexivity|apply elem_of_list_In; exact H]. }
    rewrite IH by exact Hnd. destruct (decide (j = i)) as [->|Hne].
    + rewrite lookup_insert. split.
      * intros [H|[_ H]]; [exfalso; exact (Hno _ _ H)|]. injection H as <- <-. left. left.
      * intros [H|[H _]]; [apply elem_of_cons in H as [H|H]; [injection H as <- <-; right; split; [exact Hno|reflexivity]|left; exact H]|exfalso; apply (H jdx js); left].
    + rewrite lookup_insert_ne by exact Hne. split.
      * intros [H|[H1 H2]]; [left; right; exact H|right]. split; [|exact H2]. intros a b H. apply elem_of_cons in H as [H|H]; [congruence|exact (H1 _ _ H)].
      * intros [H|[H1 H2]]; [apply elem_of_cons in H as [H|H]; [congruence|left; exact H]|right]. split; [|exact H2]. intros a b H. apply (H1 a b). right. exact H.
Qed.

Section Search.
  Context (f : fuzzy) (mt : str -> str -> option (list nat * Z)) (Hmt : matcher f mt) (q : str) (Hq : q <> []).

  Lemma name_map_spec tasks i t idx sc : tasks !! i = Some t -> name_map f q tasks !! i = Some (idx, sc) <-> mt q (t_name t) = Some (idx, sc).
  Proof.
    intros Ht. assert (Hn : map t_name tasks !! i = Some (t_name t)) by (rewrite list_lookup_fmap, Ht; reflexivity).
    unfold name_map. rewrite fold_insert_lookup by apply (mt_once f mt Hmt). rewrite lookup_empty. split.
    - intros [H|[_ H]]; [|discriminate H]. destruct (mt_sound f mt Hmt _ _ _ _ _ H) as (s & Hs & E). rewrite Hn in Hs. injection Hs as <-. exact E.
    - intros H. left. destruct (mt_complete f mt Hmt q _ _ _ Hn ltac:(eauto)) as (idx' & sc' & Hin). destruct (mt_sound f mt Hmt _ _ _ _ _ Hin) as (s & Hs & E). rewrite Hn in Hs. injection Hs as <-. congruence.
  Qed.

  Lemma aliases_hit t a idx exact : search_aliases f q t = (a, idx, exact) -> a <> [] ->
    a ∈ get_all_aliases t /\ if exact then a = q /\ idx = [] else q ∉ get_all_aliases t /\ exists sc, mt q a = Some (idx, sc) /\ forall b idx' sc', b ∈ get_all_aliases t -> mt q b = Some (idx', sc') -> sc' <= sc.
  Proof.
    unfold search_aliases. set (al := get_all_aliases t). destruct al as [|a0 al'] eqn:Eal; [intros H; injection H as <- <- <-; congruence|]. rewrite <- Eal. clear a0 al' Eal.
    destruct (decide (q ∈ al)) as [Hin|Hin].
    - intros H _. injection H as <- <- <-. auto.
    - destruct (fz_find f q al) as [|[[i jdx] sc] rest] eqn:Ef; intros H Hne; injection H as <- <- <-; [congruence|].
      destruct (mt_sound f mt Hmt q al i jdx sc) as (s & Hs & E); [rewrite Ef; left|]. rewrite (nth_lookup_Some _ _ _ _ Hs). split; [eapply elem_of_list_lookup_2; exact Hs|]. split; [exact Hin|]. exists sc. split; [exact E|].
      intros b idx' sc' Hb Eb. apply elem_of_list_lookup_1 in Hb as [j Hj]. destruct (mt_complete f mt Hmt q _ _ _ Hj ltac:(eauto)) as (idx2 & sc2 & Hin2).
      destruct (mt_sound f mt Hmt _ _ _ _ _ Hin2) as (s2 & Hs2 & E2). rewrite Hj in Hs2. injection Hs2 as <-. assert (sc2 = sc') as -> by congruence.
      pose proof (mt_sorted f mt Hmt q al) as Hsort. rewrite Ef in Hin2, Hsort. apply StronglySorted_inv in Hsort as [_ Hall]. apply elem_of_cons in Hin2 as [Hin2|Hin2]; [injection Hin2 as -> -> ->; lia|].
      rewrite Forall_forall in Hall. specialize (Hall _ Hin2). simpl in Hall. lia.
  Qed.
  Lemma aliases_miss t a idx exact : search_aliases f q t = (a, idx, exact) -> a = [] -> q ∉ get_all_aliases t /\ forall b, b ∈ get_all_aliases t -> mt q b = None.
  Proof.
    unfold search_aliases. set (al := get_all_aliases t). destruct al as [|a0 al'] eqn:Eal; [intros _ _; split; [apply not_elem_of_nil|intros b Hb; apply elem_of_nil in Hb as []]|]. rewrite <- Eal. clear a0 al' Eal.
    destruct (decide (q ∈ al)) as [Hin|Hin]; [intros H E; injection H as <- <- <-; congruence|].
    destruct (fz_find f q al) as [|[[i jdx] sc] rest] eqn:Ef; intros H E; injection H as <- <- <-.
    - split; [exact Hin|]. intros b Hb. destruct (mt q b) as [x|] eqn:Eb; [|reflexivity]. apply elem_of_list_lookup_1 in Hb as [j Hj]. destruct (mt_complete f mt Hmt q _ _ _ Hj ltac:(eauto)) as (idx2 & sc2 & Hin2). rewrite Ef in Hin2. apply elem_of_nil in Hin2 as [].
    - exfalso. destruct (mt_sound f mt Hmt q al i jdx sc) as (s & Hs & Es); [rewrite Ef; left|]. rewrite (nth_lookup_Some _ _ _ _ Hs) in E. subst s. rewrite (mt_empty f mt Hmt q Hq) in Es. discriminate Es.
  Qed.

  (** The one match of a task. *)
  Definition the_match (nm : gmap nat (list nat * Z)) (i : nat) (t : task) : option pmatch :=
    match by_alias f q nm i t with Some m => Some m | None => by_name f q nm i t end.
  Lemma the_match_task nm i t m : the_match nm i t = Some m -> m_task m = t.
  Proof.
    unfold the_match, by_name. destruct (by_alias f q nm i t) as [x|] eqn:E.
    - intros H. injection H as <-. unfold by_alias in E. destruct (search_aliases f q t) as [[a idx] ex]. destruct a; [discriminate E|]. injection E as <-. reflexivity.
    - destruct (nm !! i) as [[idx sc]|]; [|discriminate]. intros H. injection H as <-. reflexivity.
  Qed.
  Lemma the_match_found tasks i t : tasks !! i = Some t ->
    match the_match (name_map f q tasks) i t with
    | Some m => found mt q t (m_score m)
    | None => forall sc, ~ found mt q t sc
    end.
  Proof.
    intros Ht. unfold the_match, by_name, by_alias. destruct (search_aliases f q t) as [[a idx] ex] eqn:Es. destruct a as [|c a].
    - destruct (aliases_miss _ _ _ _ Es eq_refl) as [H1 H2]. destruct (name_map f q tasks !! i) as [[idx' sc]|] eqn:En.
      + simpl. apply (found_name mt q t idx' sc H1 H2). eapply name_map_spec; eassumption.
      + intros sc Hf. inversion Hf as [H|a0 idx0 sc0 _ Ha Hm _|idx0 sc0 _ _ Hm]; subst; [contradiction|rewrite (H2 _ Ha) in Hm; discriminate Hm|]. apply (name_map_spec tasks i t) in Hm; [congruence|exact Ht].
    - destruct (aliases_hit _ _ _ _ Es) as [Ha H]; [discriminate|]. destruct ex.
      + destruct H as [<- ->]. simpl. apply found_exact. exact Ha.
      + destruct H as (Hno & sc & Hm & Hbest). pose proof (found_alias mt q t (c :: a) idx sc Hno Ha Hm Hbest) as Hf. cbn [m_score]. destruct idx; exact Hf.
  Qed.
  Lemma omap_two {A} (a b g : A -> option pmatch) l : (forall x, x ∈ l -> a x = None \/ b x = None) -> (forall x, g x = match a x with Some m => Some m | None => b x end) -> omap a l ++ omap b l ≡ₚ omap g l.
  Proof.
    intros He Hg. induction l as [|x l IH]; [reflexivity|]. simpl. rewrite Hg. assert (IH' : omap a l ++ omap b l ≡ₚ omap g l) by (apply IH; intros y Hy; apply He; right; exact Hy).
    destruct (He x) as [E|E]; [left| |]; rewrite E.
    - destruct (b x); [|exact IH']. rewrite <- Permutation_middle. constructor. exact IH'.
    - destruct (a x); [simpl; constructor; exact IH'|exact IH'].
  Qed.
  Lemma omap_imap {A} (h : nat -> A -> option pmatch) l : omap id (imap h l) = omap (fun x => h x.1 x.2) (imap pair l).
  Proof.
    revert h. induction l as [|x l IH]; intros h; [reflexivity|]. cbn [imap].
    assert (E : imap (pair ∘ S) l = map (fun y => (S y.1, y.2)) (imap pair l)) by (change (map (fun y => (S y.1, y.2)) (imap pair l)) with ((fun y : nat * A => (S y.1, y.2)) <$> imap pair l); rewrite fmap_imap; apply imap_ext; reflexivity).
    rewrite E. assert (E2 : omap id (imap (h ∘ S) l) = omap (fun y => h y.1 y.2) (map (fun y => (S y.1, y.2)) (imap pair l))).
    { rewrite IH. generalize (imap pair l). intros l'. induction l' as [|y l' IHl]; [reflexivity|]. cbn [map omap list_omap fst snd compose] in *. unfold compose in *. rewrite IHl. reflexivity. }
    cbn [omap list_omap fst snd id]. rewrite E2. reflexivity.
  Qed.
  Lemma unsorted_perm tasks : unsorted f q tasks ≡ₚ omap (fun x => the_match (name_map f q tasks) x.1 x.2) (imap pair tasks).
  Proof.
    unfold unsorted. rewrite !omap_imap. apply omap_two; [|reflexivity]. intros [i t] _. unfold by_name. simpl. destruct (by_alias f q (name_map f q tasks) i t); auto.
  Qed.
  Lemma elem_imap_pair {A} (l : list A) i x : (i, x) ∈ imap pair l <-> l !! i = Some x.
  Proof.
    rewrite elem_of_lookup_imap. split; [intros (j & y & E & H); injection E as -> ->; exact H|eauto].
  Qed.
  Lemma unsorted_elem tasks m : m ∈ unsorted f q tasks <-> exists i t, tasks !! i = Some t /\ the_match (name_map f q tasks) i t = Some m.
  Proof.
    rewrite unsorted_perm, elem_of_list_omap. split.
    - intros ([i t] & H & E). apply elem_imap_pair in H. eauto.
    - intros (i & t & H & E). exists (i, t). split; [apply elem_imap_pair; exact H|exact E].
  Qed.
  Lemma unsorted_tasks tasks : map m_task (unsorted f q tasks) ≡ₚ omap (fun x => m_task <$> the_match (name_map f q tasks) x.1 x.2) (imap pair tasks).
  Proof.
    rewrite unsorted_perm. generalize (imap pair tasks). intros l. induction l as [|x l IH]; [reflexivity|]. simpl. destruct (the_match _ _ _); simpl; [constructor|]; exact IH.
  Qed.
  Lemma sublist_tasks tasks : omap (fun x => m_task <$> the_match (name_map f q tasks) x.1 x.2) (imap pair tasks) `sublist_of` tasks.
  Proof.
    assert (H : forall l : list (nat * task), omap (fun x => m_task <$> the_match (name_map f q tasks) x.1 x.2) l `sublist_of` map snd l).
    { induction l as [|[i t] l IH]; [constructor|]. simpl. destruct (the_match _ i t) as [m|] eqn:E; simpl; [rewrite (the_match_task _ _ _ _ E); apply sublist_skip, IH|apply sublist_cons, IH]. }
    specialize (H (imap pair tasks)). replace (map snd (imap pair tasks)) with tasks in H; [exact H|]. clear. change (map snd (imap pair tasks)) with (snd <$> imap pair tasks). rewrite fmap_imap. symmetry. etransitivity; [|apply list_fmap_id]. rewrite <- (imap_const id). apply imap_ext. reflexivity.
  Qed.
End Search.
