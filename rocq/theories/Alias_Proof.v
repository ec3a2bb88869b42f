(** Proofs about aliases. *)
From Verif Require Import Base Types_Model Valid_Model Valid_Spec Vars_Proof Valid_Proof.

Section Aliases.
  Context (tasks : taskmap).

  Notation entry := (str * nat * str)%type.

  (** All alias declarations, in the order in which the code meets them. *)
  Definition entries_of (n : str) : list entry :=
    match tasks !! n with
    | None => []
    | Some t => imap (fun i a => ((n, i), a)) (t_alias t :: t_aliases t)
    end.
  Definition entries (order : list str) : list entry := flat_map entries_of order.

  Definition line_of (n : str) : nat := match tasks !! n with None => 0 | Some t => t_line t end.

  Definition estep (st : gmap str str * list verr) (e : entry) :=
    alias_step tasks e.1.1 (line_of e.1.1) e.2 st.

  Definition bstep (m : gmap str str) (e : entry) : gmap str str :=
    match e.2 with [] => m | a => <[a := e.1.1]> m end.

  Lemma all_aliases_fold {T} (f : T -> str -> T) (t : task) (s : T) : (forall s, f s [] = s) ->
    fold_left f (get_all_aliases t) s = fold_left f (t_alias t :: t_aliases t) s.
  Proof.
    intros Hf. unfold get_all_aliases. destruct (t_alias t) as [|c a]; [|reflexivity].
    simpl. rewrite Hf. reflexivity.
  Qed.

  Lemma fold_imap {A B T} (f : T -> B -> T) (g : nat -> A -> B) (h : T -> A -> T) l :
    forall s k, (forall s i a, f s (g i a) = h s a) ->
    fold_left f (imap (fun i => g (k + i)) l) s = fold_left h l s.
  Proof.
    induction l as [|a l IH]; intros s k Hg; simpl; [reflexivity|]. rewrite Hg.
    rewrite <- (IH (h s a) (S k) Hg). f_equal. apply imap_ext. intros i x _. simpl. f_equal. lia.
  Qed.

  Lemma validate_fold order st :
    fold_left (fun st n => alias_task tasks n st) order st = fold_left estep (entries order) st.
  Proof.
    revert st; induction order as [|n order IH]; intros st; [reflexivity|]. simpl.
    rewrite fold_left_app, <- IH. f_equal. unfold alias_task, entries_of.
    destruct (tasks !! n) as [t|] eqn:Et; [|reflexivity].
    rewrite all_aliases_fold by reflexivity. symmetry.
    apply (fold_imap estep (fun i a => ((n, i), a)) (fun st a => alias_step tasks n (t_line t) a st) _ st 0).
    intros s i a. unfold estep, line_of. simpl. rewrite Et. reflexivity.
  Qed.

  Lemma build_fold order :
    build_alias_map tasks order = fold_left bstep (entries order) ∅.
  Proof.
    unfold build_alias_map. generalize (∅ : gmap str str). induction order as [|n order IH]; intros m; [reflexivity|].
    simpl. rewrite fold_left_app, <- IH. f_equal. unfold entries_of.
    destruct (tasks !! n) as [t|] eqn:Et; [|reflexivity].
    rewrite all_aliases_fold by reflexivity. symmetry.
    apply (fold_imap bstep (fun i a => ((n, i), a)) (fun m a => match a with [] => m | _ => <[a:=n]> m end) _ m 0).
    intros s i a. unfold bstep. simpl. destruct a; reflexivity.
  Qed.

  (** No two positions carry the same non-empty alias. *)
  Fixpoint uniq (l : list entry) : Prop :=
    match l with
    | [] => True
    | e :: r => (e.2 <> [] -> forall e', e' ∈ r -> e'.2 <> e.2) /\ uniq r
    end.

  Lemma estep_mono l : forall st, (fold_left estep l st).2 = [] -> st.2 = [].
  Proof.
    induction l as [|e l IH]; intros st H; simpl in H; [exact H|]. apply IH in H.
    unfold estep, alias_step in H. destruct e.2; [exact H|].
    destruct (tm_has tasks _); simpl in H; [apply app_nil in H; tauto|].
    destruct (st.1 !! _); simpl in H; [apply app_nil in H; tauto|exact H].
  Qed.

  Lemma estep_fold l : forall st, (fold_left estep l st).2 = [] <->
    st.2 = [] /\ (forall e, e ∈ l -> e.2 <> [] -> tasks !! e.2 = None /\ st.1 !! e.2 = None) /\ uniq l.
  Proof.
    induction l as [|e l IH]; intros st; simpl.
    - split; [|tauto]. intros H. split; [exact H|]. split; [|exact I]. intros e He. apply elem_of_nil in He. contradiction.
    - rewrite IH. unfold estep, alias_step. destruct e as [[n i] a]. simpl. destruct a as [|c a].
      + split.
        * intros (H1 & H2 & H3). split; [exact H1|]. split; [|split; [congruence|exact H3]].
          intros e He Hne. apply elem_of_cons in He as [->|He]; [simpl in Hne; congruence|]. auto.
        * intros (H1 & H2 & _ & H3). split; [exact H1|]. split; [|exact H3]. intros e He. apply H2. right; exact He.
      + destruct (tm_has tasks (c :: a)) eqn:Eh; simpl.
        * split.
          -- intros (H1 & _). apply app_nil in H1 as [_ H1]. discriminate.
          -- intros (_ & H2 & _). destruct (H2 (n, i, c :: a)) as [H _]; [left|discriminate|].
             simpl in H. apply tm_has_true in Eh as [t Ht]. congruence.
        * apply tm_has_false in Eh. destruct (st.1 !! (c :: a)) as [o|] eqn:Eo; simpl.
          -- split.
             ++ intros (H1 & _). apply app_nil in H1 as [_ H1]. discriminate.
             ++ intros (_ & H2 & _). destruct (H2 (n, i, c :: a)) as [_ H]; [left|discriminate|].
                simpl in H. congruence.
          -- split.
             ++ intros (H1 & H2 & H3). split; [exact H1|]. split; [|split; [|exact H3]].
                ** intros e He Hne. apply elem_of_cons in He as [->|He]; [simpl; auto|].
                   destruct (H2 e He Hne) as [Ha Hb]. split; [exact Ha|].
                   apply lookup_insert_None in Hb as [Hb _]. exact Hb.
                ** intros _ e He Heq. destruct (H2 e He) as [_ Hb]; [rewrite Heq; discriminate|].
                   rewrite Heq, lookup_insert in Hb. discriminate.
             ++ intros (H1 & H2 & H3 & H4). split; [exact H1|]. split; [|exact H4].
                intros e He Hne. destruct (H2 e) as [Ha Hb]; [right; exact He|exact Hne|]. split; [exact Ha|].
                rewrite lookup_insert_ne; [exact Hb|]. intros Heq. apply (H3 ltac:(discriminate) e He). auto.
  Qed.

  Lemma entries_elem order n i a : (n, i, a) ∈ entries order <->
    n ∈ order /\ exists t, tasks !! n = Some t /\ (t_alias t :: t_aliases t) !! i = Some a.
  Proof.
    unfold entries. rewrite elem_of_list_In, in_flat_map. split.
    - intros (m & Hm & He). apply elem_of_list_In in Hm, He. unfold entries_of in He.
      destruct (tasks !! m) as [t|] eqn:Et; [|apply elem_of_nil in He; contradiction].
      apply elem_of_lookup_imap in He as (j & b & Heq & Hj). injection Heq as -> -> ->.
      split; [exact Hm|]. exists t. auto.
    - intros (Hn & t & Ht & Hi). exists n. split; [apply elem_of_list_In; exact Hn|].
      apply elem_of_list_In. unfold entries_of. rewrite Ht. apply elem_of_lookup_imap. eauto.
  Qed.

  Lemma entries_NoDup order : NoDup order -> NoDup (entries order).*1.
  Proof.
    induction 1 as [|n order Hn _ IH]; simpl; [constructor|]. rewrite fmap_app. apply NoDup_app.
    split; [|split; [|exact IH]].
    - unfold entries_of. destruct (tasks !! n) as [t|]; [|constructor]. rewrite fmap_imap.
      rewrite (imap_ext _ (fun i _ => (n, i))) by reflexivity. rewrite imap_seq_0.
      apply NoDup_fmap_2; [|apply NoDup_seq]. intros x y H. injection H as ->. reflexivity.
    - intros [m i] H1 H2. apply elem_of_list_fmap in H1 as ([[m1 i1] a1] & Heq & H1).
      simpl in Heq. injection Heq as <- <-.
      apply elem_of_list_fmap in H2 as ([[m2 i2] a2] & Heq & H2). simpl in Heq. injection Heq as <- <-.
      unfold entries_of in H1. destruct (tasks !! n); [|apply elem_of_nil in H1; contradiction].
      apply elem_of_lookup_imap in H1 as (j & b & Heq & _). injection Heq as -> _ _.
      apply (proj1 (entries_elem order _ _ _)) in H2 as [H2 _]. contradiction.
  Qed.

  Lemma uniq_iff l : NoDup l.*1 ->
    (uniq l <-> forall k1 k2 a, a <> [] -> (k1, a) ∈ l -> (k2, a) ∈ l -> k1 = k2).
  Proof.
    induction l as [|[k a] l IH]; simpl; intros Hnd.
    - split; [|auto]. intros _ k1 k2 a _ H. apply elem_of_nil in H. contradiction.
    - apply NoDup_cons in Hnd as [Hk Hnd]. rewrite IH by exact Hnd. split.
      + intros [H1 H2] k1 k2 b Hb Hin1 Hin2. apply elem_of_cons in Hin1 as [Heq1|Hin1];
          apply elem_of_cons in Hin2 as [Heq2|Hin2].
        * congruence.
        * injection Heq1 as -> ->. exfalso. apply (H1 Hb (k2, a) Hin2). reflexivity.
        * injection Heq2 as -> ->. exfalso. apply (H1 Hb (k1, a) Hin1). reflexivity.
        * eapply H2; eassumption.
      + intros H. split.
        * intros Ha [k' a'] Hin Heq. simpl in Heq. subst a'. assert (k = k') as ->.
          { apply (H k k' a Ha); [left|right; exact Hin]. }
          apply Hk, elem_of_list_fmap. exists (k', a). auto.
        * intros k1 k2 b Hb Hin1 Hin2. apply (H k1 k2 b Hb); right; assumption.
  Qed.

  Lemma aliases_iff order : iteration_order tasks order ->
    (validate_aliases tasks order = [] <-> ~ ambiguous tasks).
  Proof.
    intros Ho. pose proof (iteration_order_elem _ _ Ho) as Hel.
    assert (Hnd : NoDup order) by (unfold iteration_order in Ho; rewrite Ho; apply NoDup_fst_map_to_list; apply _).
    unfold validate_aliases. rewrite validate_fold, estep_fold, uniq_iff by (apply entries_NoDup; exact Hnd).
    assert (Hdecl : forall n i a, a <> [] -> (n, i, a) ∈ entries order <-> declares tasks n i a).
    { intros n i a Ha. rewrite entries_elem. split.
      - intros (_ & t & Ht & Hi). exists t. auto.
      - intros (t & Ht & Hi & _). split; [apply Hel; eauto|eauto]. }
    simpl. split.
    - intros (_ & H1 & H2) (a & n & i & Hd & Hbad). assert (Ha : a <> []) by (destruct Hd as (? & ? & ? & ?); assumption).
      destruct Hbad as [[t Ht]|(m & j & Hd' & Hne)].
      + destruct (H1 (n, i, a)) as [H _]; [apply Hdecl; assumption|exact Ha|]. simpl in H. congruence.
      + apply Hne. apply (H2 _ _ a Ha); apply Hdecl; assumption.
    - intros Hna. split; [reflexivity|]. split.
      + intros [[n i] a] He Ha. simpl in *. split; [|apply lookup_empty].
        destruct (tasks !! a) as [t|] eqn:Et; [|reflexivity]. exfalso. apply Hna.
        exists a, n, i. split; [apply Hdecl; assumption|]. left. eauto.
      + intros [n i] [m j] a Ha H1 H2. destruct (decide ((n, i) = (m, j))) as [->|Hne]; [reflexivity|].
        exfalso. apply Hna. exists a, n, i. split; [apply Hdecl; assumption|]. right. exists m, j.
        split; [apply Hdecl; assumption|congruence].
  Qed.

  Lemma bstep_fold l : forall m a n, fold_left bstep l m !! a = Some n ->
    (exists i, (n, i, a) ∈ l /\ a <> []) \/ m !! a = Some n.
  Proof.
    induction l as [|[[k i] b] l IH]; intros m a n H; simpl in H; [right; exact H|].
    apply IH in H as [(j & Hin & Ha)|H]; [left; exists j; split; [right; exact Hin|exact Ha]|].
    unfold bstep in H. simpl in H. destruct b as [|c b]; [right; exact H|].
    apply lookup_insert_Some in H as [[<- <-]|[_ H]]; [|right; exact H].
    left. exists i. split; [left|discriminate].
  Qed.

  Lemma bstep_fold_some l : forall m a, (a <> [] /\ exists k, (k, a) ∈ l) \/ is_Some (m !! a) ->
    is_Some (fold_left bstep l m !! a).
  Proof.
    induction l as [|[[k i] b] l IH]; intros m a H; simpl.
    - destruct H as [(_ & k & H)|H]; [apply elem_of_nil in H; contradiction|exact H].
    - apply IH. unfold bstep. simpl. destruct H as [(Ha & k' & H)|H].
      + apply elem_of_cons in H as [H|H]; [|left; eauto]. injection H as -> ->. right.
        destruct b as [|c b]; [congruence|]. rewrite lookup_insert. eauto.
      + right. destruct b as [|c b]; [exact H|]. destruct (decide (c :: b = a)) as [->|Hne].
        * rewrite lookup_insert. eauto.
        * rewrite lookup_insert_ne by exact Hne. exact H.
  Qed.

  Lemma alias_map_iff order : iteration_order tasks order -> ~ ambiguous tasks ->
    forall a n, build_alias_map tasks order !! a = Some n <-> exists i, declares tasks n i a.
  Proof.
    intros Ho Hna a n. pose proof (iteration_order_elem _ _ Ho) as Hel. rewrite build_fold. split.
    - intros H. apply bstep_fold in H as [(i & Hin & Ha)|H]; [|rewrite lookup_empty in H; discriminate].
      apply entries_elem in Hin as (_ & t & Ht & Hi). exists i, t. auto.
    - intros (i & Hd). pose proof Hd as (t & Ht & Hi & Ha).
      destruct (bstep_fold_some (entries order) ∅ a) as [m Hm].
      { left. split; [exact Ha|]. exists (n, i). apply entries_elem. split; [apply Hel; eauto|eauto]. }
      rewrite Hm. apply bstep_fold in Hm as [(j & Hin & _)|H]; [|rewrite lookup_empty in H; discriminate].
      apply entries_elem in Hin as (_ & t' & Ht' & Hj). f_equal.
      destruct (decide ((m, j) = (n, i))) as [Heq|Hne]; [congruence|]. exfalso. apply Hna.
      exists a, n, i. split; [exact Hd|]. right. exists m, j. split; [exists t'; auto|exact Hne].
  Qed.
End Aliases.

(** The alias pass only reports alias problems. *)
Lemma alias_errs_kind tasks order line n a : VNotFound line n a ∉ validate_aliases tasks order.
Proof.
  unfold validate_aliases. rewrite validate_fold.
  assert (H : forall l st, VNotFound line n a ∉ st.2 -> VNotFound line n a ∉ (fold_left (estep tasks) l st).2).
  { induction l as [|e l IH]; intros st Hst; simpl; [exact Hst|]. apply IH. unfold estep, alias_step.
    destruct e.2; [exact Hst|]. destruct (tm_has tasks _); simpl.
    - rewrite elem_of_app, elem_of_list_singleton. intros [H|H]; [contradiction|discriminate].
    - destruct (st.1 !! _); simpl; [|exact Hst].
      rewrite elem_of_app, elem_of_list_singleton. intros [H|H]; [contradiction|discriminate]. }
  apply H. simpl. apply not_elem_of_nil.
Qed.
