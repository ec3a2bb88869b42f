(** Theorems about YAML aliases: C59. *)
From Verif Require Import Base Types_Model Include_Model Doc_Model Doc_Spec Doc_Proof Doc_Item Doc_Tree Doc_File Doc_Example.

(** [v'] is [v] with some aliases written out. *)
Inductive resolves : node -> node -> Prop :=
| res_same n : resolves n n
| res_alias l a t t' : resolves t t' -> resolves (YAlias l a t) t'
| res_seq l its its' : Forall2 resolves its its' -> resolves (YSeq l its) (YSeq l its')
| res_map l c c' : Forall2 (fun p q => p.1 = q.1 /\ resolves p.2 q.2) c c' -> resolves (YMap l c) (YMap l c').

(** Documents that differ, by [R], only in values that the code hands to the library: lists, numbers, includes. *)
Section Rel.
  Context (R : node -> node -> Prop).

  Inductive item_rel : node -> node -> Prop :=
  | item_same n : item_rel n n
  | item_map l c c' :
      Forall2 (fun p q => p.1 = q.1 /\
        (p.2 = q.2 \/
         (one_of ["platforms"; "options"; "defaults"; "min"; "max"; "limit"] (value_of p.1) /\ R p.2 q.2) \/
         (value_of p.1 = lit "parallel" /\ exists l its its', p.2 = YSeq l its /\ q.2 = YSeq l its' /\ Forall2 item_rel its its'))) c c' ->
      item_rel (YMap l c) (YMap l c').
  Definition item_val (x : str) (v v' : node) : Prop :=
    v = v' \/ (one_of ["platforms"; "options"; "defaults"; "min"; "max"; "limit"] x /\ R v v') \/
    (x = lit "parallel" /\ exists l its its', v = YSeq l its /\ v' = YSeq l its' /\ Forall2 item_rel its its').
  Definition task_val (x : str) (v v' : node) : Prop :=
    v = v' \/ (one_of ["aliases"; "deps"] x /\ R v v') \/
    (x = lit "run" /\ exists l its its', v = YSeq l its /\ v' = YSeq l its' /\ Forall2 item_rel its its').
  (** Entries with the same keys and values related by [E], which knows the key. *)
  Notation entries_rel E c c' := (Forall2 (fun p q : node * node => p.1 = q.1 /\ E (value_of p.1) p.2 q.2) c c').
  Definition task_rel (v v' : node) : Prop := v = v' \/ exists l c c', v = YMap l c /\ v' = YMap l c' /\ entries_rel task_val c c'.
  Definition section_val (x : str) (v v' : node) : Prop :=
    v = v' \/
    (x = lit "tasks" /\ exists l c c', v = YMap l c /\ v' = YMap l c' /\ entries_rel (fun _ => task_rel) c c') \/
    (x = lit "includes" /\ exists l c c', v = YMap l c /\ v' = YMap l c' /\ entries_rel (fun _ => R) c c').
  Definition doc_rel (n n' : node) : Prop := n = n' \/ exists l c c', n = YMap l c /\ n' = YMap l c' /\ entries_rel section_val c c'.
End Rel.
Notation entries_rel E c c' := (Forall2 (fun p q : node * node => p.1 = q.1 /\ E (value_of p.1) p.2 q.2) c c').

Lemma item_rel_map R l c c' : entries_rel (item_val R) c c' -> item_rel R (YMap l c) (YMap l c').
Proof. intros H. constructor. exact H. Qed.

Lemma Forall2_flip' {A} (P : A -> A -> Prop) l l' : (forall x y, P x y -> P y x) -> Forall2 P l l' -> Forall2 P l' l.
Proof. intros H. induction 1; constructor; auto. Qed.

Section Sym.
  Context (R : node -> node -> Prop) (HR : forall v v', R v v' -> R v' v).
  Lemma item_sym : forall n n', item_rel R n n' -> item_rel R n' n.
  Proof.
    fix IH 3. intros n n' [m|l c c' H]; [constructor|]. constructor. induction H as [|p q c c' [Hk Hv] _ IHl]; constructor; [|exact IHl]. rewrite <- Hk. split; [reflexivity|].
    destruct Hv as [E|[[Hx Hv]|(Hx & l' & its & its' & E1 & E2 & Hits)]]; [left; congruence|right; left; auto|]. right. right. split; [exact Hx|].
    exists l', its', its. split; [exact E2|]. split; [exact E1|]. clear -IH Hits. induction Hits as [|x y xs ys Hxy _ IHl]; constructor; [exact (IH _ _ Hxy)|exact IHl].
  Qed.
  Lemma items_sym l l' : Forall2 (item_rel R) l l' -> Forall2 (item_rel R) l' l.
  Proof. apply Forall2_flip'. exact item_sym. Qed.
  Lemma entries_sym (E : str -> node -> node -> Prop) c c' : (forall x v v', E x v v' -> E x v' v) -> entries_rel E c c' -> entries_rel E c' c.
  Proof. intros H. induction 1 as [|p q c c' [Hk Hv] _ IH]; constructor; [|exact IH]. rewrite <- Hk. auto. Qed.
  Lemma task_val_sym x v v' : task_val R x v v' -> task_val R x v' v.
  Proof. intros [E|[[Hx H]|(Hx & l & a & b & E1 & E2 & H)]]; [left; congruence|right; left; auto|right; right; split; [exact Hx|]; exists l, b, a; auto using items_sym]. Qed.
  Lemma task_sym v v' : task_rel R v v' -> task_rel R v' v.
  Proof. intros [E|(l & a & b & E1 & E2 & H)]; [left; congruence|right; exists l, b, a]. split; [exact E2|]. split; [exact E1|]. apply (entries_sym (task_val R)); [exact task_val_sym|exact H]. Qed.
  Lemma section_sym x v v' : section_val R x v v' -> section_val R x v' v.
  Proof.
    intros [E|[(Hx & l & a & b & E1 & E2 & H)|(Hx & l & a & b & E1 & E2 & H)]]; [left; congruence| |].
    - right; left; split; [exact Hx|]; exists l, b, a. split; [exact E2|]. split; [exact E1|]. apply (entries_sym (fun _ => task_rel R)); [intros _; exact task_sym|exact H].
    - right; right; split; [exact Hx|]; exists l, b, a. split; [exact E2|]. split; [exact E1|]. apply (entries_sym (fun _ => R)); [intros _; exact HR|exact H].
  Qed.
  Lemma doc_sym n n' : doc_rel R n n' -> doc_rel R n' n.
  Proof. intros [E|(l & a & b & E1 & E2 & H)]; [left; congruence|right; exists l, b, a]. split; [exact E2|]. split; [exact E1|]. apply (entries_sym (section_val R)); [exact section_sym|exact H]. Qed.
End Sym.

Section Inv.
  Context (Y : yaml).
  (** The library decodes both alike. *)
  Definition alike (v v' : node) : Prop := y_strs Y v = y_strs Y v' /\ y_int Y v = y_int Y v' /\ y_include Y v = y_include Y v'.
  Lemma alike_sym v v' : alike v v' -> alike v' v.
  Proof. intros (? & ? & ?). split; [|split]; congruence. Qed.

  Section Entries.
    Context (E : str -> node -> node -> Prop) (c c' : list (node * node)).
    Lemma under_rel x : entries_rel E c c' -> Forall2 (E x) (under c x) (under c' x).
    Proof.
      intros H.
      unfold under. induction H as [|[k v] [k' v'] r r' [Hk Hv] _ IH]; [constructor|]. cbn [fst snd] in *. subst k'. rewrite !filter_cons. cbn [fst].
      destruct (decide (value_of k = x)) as [<-|]; [|exact IH]. constructor; [exact Hv|exact IH].
    Qed.
    Lemma field_rel k : entries_rel E c c' -> option_Forall2 (E (lit k)) (field c k) (field c' k).
    Proof. intros H. unfold field, field_at. pose proof (under_rel (lit k) H) as Hu. induction Hu as [|v v' r r' Hv Hr IH]; [constructor|]. destruct Hr; [constructor; exact Hv|exact IH]. Qed.
    Lemma field_same k : entries_rel E c c' -> (forall v v', E (lit k) v v' -> v = v') -> field c k = field c' k.
    Proof. intros H. intros Hs. destruct (field_rel k H); [f_equal; auto|reflexivity]. Qed.
    Lemma text_same k : entries_rel E c c' -> (forall v v', E (lit k) v v' -> v = v') -> text c k = text c' k.
    Proof. intros H. intros Hs. unfold text. rewrite (field_same k H Hs). reflexivity. Qed.
    Lemma bool_same k : entries_rel E c c' -> (forall v v', E (lit k) v v' -> v = v') -> bool_of Y c k = bool_of Y c' k.
    Proof. intros H. intros Hs. unfold bool_of. rewrite (field_same k H Hs). reflexivity. Qed.
    Lemma map_same k : entries_rel E c c' -> (forall v v', E (lit k) v v' -> v = v') -> map_of c k = map_of c' k.
    Proof. intros H. intros Hs. unfold map_of. rewrite (field_same k H Hs). reflexivity. Qed.
    Lemma strs_same k : entries_rel E c c' -> (forall v v', E (lit k) v v' -> y_strs Y v = y_strs Y v') -> strs_of Y c k = strs_of Y c' k.
    Proof. intros H. intros Hs. unfold strs_of. destruct (field_rel k H) as [v v' Hv|]; [|reflexivity]. cbn. rewrite (Hs _ _ Hv). reflexivity. Qed.
    Lemma int_same k : entries_rel E c c' -> (forall v v', E (lit k) v v' -> y_int Y v = y_int Y v') -> int_of Y c k = int_of Y c' k.
    Proof. intros H. intros Hs. unfold int_of. destruct (field_rel k H) as [v v' Hv|]; [|reflexivity]. cbn. rewrite (Hs _ _ Hv). reflexivity. Qed.
    Lemma has_same k : entries_rel E c c' -> has c k <-> has c' k.
    Proof.
      intros H.
      assert (G : map (fun kv => value_of kv.1) c = map (fun kv => value_of kv.1) c') by (induction H as [|p q r r' [Hk _] _ IH]; [reflexivity|cbn [map]; rewrite Hk, IH; reflexivity]).
      assert (M : forall c, has c k <-> lit k ∈ map (fun kv => value_of kv.1) c).
      { intros d. unfold has. split; [intros (kv & Hin & <-); apply elem_of_list_fmap; eauto|]. intros Hin. apply elem_of_list_fmap in Hin as (kv & E1 & Hin). eauto. }
      rewrite !M, G. reflexivity.
    Qed.
    Lemma keys_same : entries_rel E c c' -> map (fun kv => value_of kv.1) c = map (fun kv => value_of kv.1) c'.
    Proof. intros H. induction H as [|p q r r' [Hk _] _ IH]; [reflexivity|cbn [map]; rewrite Hk, IH; reflexivity]. Qed.
    Lemma key_at_same k : entries_rel E c c' -> key_at c k = key_at c' k.
    Proof.
      intros H.
      unfold key_at. f_equal. induction H as [|[a v] [a' v'] r r' [Hk _] _ IH]; [reflexivity|]. cbn [fst] in Hk. subst a'. rewrite !filter_cons. cbn [fst].
      destruct (decide (value_of a = lit k)); [|exact IH]. cbn. f_equal. exact IH.
    Qed.
    Lemma all_same (P : str -> node -> Prop) : entries_rel E c c' -> (forall x v v', E x v v' -> P x v -> P x v') -> Forall (fun kv => P (value_of kv.1) kv.2) c -> Forall (fun kv => P (value_of kv.1) kv.2) c'.
    Proof. intros H. intros HP. induction H as [|p q r r' [Hk Hv] _ IH]; intros Hall; [constructor|]. inversion Hall; subst. constructor; [rewrite <- Hk; eauto|auto]. Qed.
  End Entries.

  Ltac keep := intros v1 v2 [Ev|[[Hx _]|[Hx _]]]; [exact Ev|exfalso; keys|exfalso; keys].
  Ltac keep_strs := intros v1 v2 [Ev|[[_ Ha]|[Hx _]]]; [rewrite Ev; reflexivity|apply Ha|exfalso; keys].

  Lemma entry_ok_rel x v v' : item_val alike x v v' -> x <> lit "parallel" -> entry_ok Y x v -> entry_ok Y x v'.
  Proof.
    intros [->|[[Hx (H1 & H2 & H3)]|[Hx _]]] Hp H; [exact H| |contradiction]. destruct H as [Hd He Hb Hpl Hs Hi]. constructor; intros Hy.
    - exfalso; keys.
    - exfalso; keys.
    - exfalso; keys.
    - destruct (Hpl Hy) as (ps & Hps & Hall). exists ps. rewrite <- H1. auto.
    - rewrite <- H1. auto.
    - rewrite <- H2. auto.
  Qed.
  Lemma block_entry_ok_rel x v v' : item_val alike x v v' -> block_entry_ok Y x v -> block_entry_ok Y x v'.
  Proof.
    intros [->|[[Hx (H1 & H2 & H3)]|(Hx & l & its & its' & -> & -> & _)]] [Hk Hi Hm Hl Hb Hp]; [constructor; assumption| |].
    - constructor; [exact Hk|intros Hy..]; try (exfalso; keys; fail).
      + rewrite <- H2. auto.
      + destruct (Hp Hy) as (ps & Hps & Hall). exists ps. rewrite <- H1. auto.
    - constructor; [exact Hk|intros Hy..]; try (exfalso; keys; fail). eauto.
  Qed.
  Lemma the_kind_rel c c' k : entries_rel (item_val alike) c c' -> the_kind Y c k -> the_kind Y c' k.
  Proof.
    intros Hc (Hp & Hall & Hk). split; [rewrite <- (has_same _ _ _ "parallel" Hc); exact Hp|]. split.
    - assert (Hall2 : Forall (fun kv => (fun x v => x <> lit "parallel" /\ entry_ok Y x v) (value_of kv.1) kv.2) c).
      { apply Forall_forall. intros kv Hin. rewrite Forall_forall in Hall. split; [|apply Hall; exact Hin]. intros E. apply Hp. exists kv. auto. }
      apply (all_same _ _ _ _ Hc) in Hall2; [|intros x v v' He [H1 H2]; split; [exact H1|eapply entry_ok_rel; eassumption]].
      eapply Forall_impl; [exact Hall2|]. intros kv [_ H]. exact H.
    - intros k' Hin. rewrite <- (text_same _ _ _ k' Hc); [auto|].
      simpl in Hin. destruct Hin as [<-|[<-|[<-|[<-|[]]]]]; keep.
  Qed.

  Ltac moving Hc := repeat match type of Hc with Forall2 _ ?c ?c' => match goal with
    | |- context [text c ?k] => rewrite (text_same _ c c' k Hc) by keep
    | |- context [bool_of Y c ?k] => rewrite (bool_same _ c c' k Hc) by keep
    | |- context [map_of c ?k] => rewrite (map_same _ c c' k Hc) by keep
    | |- context [strs_of Y c ?k] => rewrite (strs_same _ c c' k Hc) by keep_strs
    | |- context [int_of Y c ?k] => rewrite (int_same _ c c' k Hc) by keep_strs
    end end.

  Lemma label_rel n n' : item_rel alike n n' -> label n = label n'.
  Proof.
    intros [m|l c c' Hc]; [reflexivity|]. change (entries_rel (item_val alike) c c') in Hc. unfold label. pose proof (under_rel _ _ _ (lit "label") Hc) as Hu.
    destruct Hu as [|v v' r r' Hv _]; [reflexivity|]. revert v v' Hv.
    assert (G : forall v v', item_val alike (lit "label") v v' -> v = v') by keep. intros v v' Hv. rewrite (G _ _ Hv). reflexivity.
  Qed.

  Lemma becomes_rel : forall n it, becomes Y n it -> forall n', item_rel alike n n' -> becomes Y n' it.
  Proof.
    fix IH 3. intros n it Hb n' Hr. destruct Hr as [m|l c c' Hc]; [exact Hb|]. change (entries_rel (item_val alike) c c') in Hc.
    inversion Hb as [l1 c1 H|l1 c1 H|l1 c1 H Hl|l1 c1 p H Ep Hp|l1 c1 l' its items Hk Hf Hne H2 Hs]; subst; moving Hc.
    - apply B_cmd. eapply the_kind_rel; eassumption.
    - apply B_task. eapply the_kind_rel; eassumption.
    - apply B_log; [eapply the_kind_rel; eassumption|]. revert Hl. moving Hc. auto.
    - eapply B_prompt; [eapply the_kind_rel; eassumption|reflexivity|]. revert Hp. moving Hc. auto.
    - pose proof (field_rel _ _ _ "parallel" Hc) as Hf'. rewrite Hf in Hf'. inversion Hf' as [v v' Hv Ev Ev'|]; subst. 
      destruct Hv as [E|[[Hx _]|(_ & l2 & its2 & its' & E1 & -> & Hits)]]; [subst v'|exfalso; keys|].
      + eapply B_par; [|symmetry; eassumption|exact Hne|exact H2|exact Hs]. eapply all_same; [exact Hc|apply block_entry_ok_rel|exact Hk].
      + injection E1 as <- <-. replace (map label its) with (map label its').
        2: { clear -Hits. induction Hits as [|x y xs ys Hxy _ IHl]; [reflexivity|]. cbn [map]. rewrite IHl, (label_rel _ _ Hxy). reflexivity. }
        eapply B_par; [|symmetry; eassumption| | |exact Hs].
        * eapply all_same; [exact Hc|apply block_entry_ok_rel|exact Hk].
        * destruct Hits; [contradiction|discriminate].
        * clear -IH H2 Hits. revert its' Hits. induction H2 as [|x y xs ys Hxy _ IHl]; intros its' Hits; inversion Hits; subst; constructor; [eapply IH; eassumption|auto].
  Qed.
  Lemma task_entry_ok_rel x v v' : task_val alike x v v' -> task_entry_ok Y x v -> task_entry_ok Y x v'.
  Proof.
    intros [->|[[Hx (H1 & H2 & H3)]|(Hx & l & its & its' & -> & -> & Hits)]] [Hs Hm Hb Hd Hr]; [constructor; assumption| |].
    - constructor; intros Hy; try (exfalso; keys; fail). rewrite <- H1. auto.
    - constructor; intros Hy; try (exfalso; keys; fail). destruct (Hr Hx) as (? & ? & [= <- <-] & Hall). exists l, its'. split; [reflexivity|].
      clear -Hall Hits. induction Hits as [|a b r r' Hab _ IH]; [constructor|]. inversion Hall as [|? ? [it Hit] Hrest]; subst. constructor; [|auto]. exists it. eapply becomes_rel; eassumption.
  Qed.
  Lemma task_means_rel k v v' t : task_rel alike v v' -> task_means Y k v t -> task_means Y k v' t.
  Proof.
    intros [->|(l & c & c' & -> & -> & Hc)]; [auto|]. intros (? & ? & [= <- <-] & Hall & Et & Hr). exists l, c'. split; [reflexivity|].
    split; [eapply all_same; [exact Hc|apply task_entry_ok_rel|exact Hall]|]. split.
    - rewrite <- (key_at_same _ _ _ "deps" Hc). revert Et. moving Hc. auto.
    - pose proof (field_rel _ _ _ "run" Hc) as Hf. destruct Hf as [w w' Hw|]; [|exact Hr]. destruct Hr as (l' & its & -> & H2).
      destruct Hw as [<-|[[Hx _]|(_ & l2 & its2 & its' & [= <- <-] & -> & Hits)]]; [eauto|exfalso; keys|]. exists l', its'. split; [reflexivity|].
      clear -H2 Hits. revert its' Hits. induction H2 as [|a b r r' Hab _ IH]; intros its' Hits; inversion Hits; subst; constructor; [eapply becomes_rel; eassumption|auto].
  Qed.
  Lemma section_ok_rel x v v' : section_val alike x v v' -> section_ok Y x v -> section_ok Y x v'.
  Proof.
    intros [->|[(Hx & l & c & c' & -> & -> & Hc)|(Hx & l & c & c' & -> & -> & Hc)]] [Hm Hb Hd Ht Hi]; [constructor; assumption| |].
    - constructor; intros Hy; try (exfalso; keys; fail). destruct (Ht Hx) as (? & ? & [= <- <-] & Hn & Hall). exists l, c'. split; [reflexivity|].
      split; [rewrite <- (keys_same (fun _ => task_rel alike) _ _ Hc); exact Hn|]. clear -Hall Hc. induction Hc as [|[k v] [k' v'] r r' [Hk Hv] _ IH]; [constructor|].
      inversion Hall as [|? ? [t Hit] Hrest]; subst. cbn [fst snd] in *. subst k'. constructor; [|auto]. exists t. eapply task_means_rel; eassumption.
    - constructor; intros Hy; try (exfalso; keys; fail). destruct (Hi Hx) as (? & ? & [= <- <-] & Hall). exists l, c'. split; [reflexivity|].
      clear -Hall Hc. induction Hc as [|[k v] [k' v'] r r' [Hk Hv] _ IH]; [constructor|]. inversion Hall as [|? ? Hit Hrest]; subst. cbn [fst snd] in *. constructor; [|auto].
      destruct Hv as (_ & _ & E). cbn [snd]. rewrite <- E. exact Hit.
  Qed.

  Lemma entries_tasks_rel c c' : entries_rel (section_val alike) c c' -> entries_rel (fun _ => task_rel alike) (entries c "tasks") (entries c' "tasks").
  Proof.
    intros Hc. unfold entries. pose proof (under_rel _ _ _ (lit "tasks") Hc) as Hu. induction Hu as [|v v' r r' Hv _ IH]; [constructor|]. cbn [map concat]. apply Forall2_app; [|exact IH].
    destruct Hv as [->|[(_ & l & d & d' & -> & -> & Hd)|[Hx _]]]; [|exact Hd|exfalso; keys].
    destruct v' as [| |l d|]; try constructor. induction d; constructor; [|assumption]. split; [reflexivity|left; reflexivity].
  Qed.
  Lemma entries_includes_rel c c' : entries_rel (section_val alike) c c' -> entries_rel (fun _ => alike) (entries c "includes") (entries c' "includes").
  Proof.
    intros Hc. unfold entries. pose proof (under_rel _ _ _ (lit "includes") Hc) as Hu. induction Hu as [|v v' r r' Hv _ IH]; [constructor|]. cbn [map concat]. apply Forall2_app; [|exact IH].
    destruct Hv as [->|[[Hx _]|(_ & l & d & d' & -> & -> & Hd)]]; [|exfalso; keys|exact Hd].
    destruct v' as [| |l d|]; try constructor. induction d; constructor; [|assumption]. split; [reflexivity|repeat split].
  Qed.
  Lemma last_rel c c' x : entries_rel (fun _ => task_rel alike) c c' -> forall k v, last (filter (fun kv => value_of kv.1 = x) c) = Some (k, v) ->
    exists v', last (filter (fun kv => value_of kv.1 = x) c') = Some (k, v') /\ task_rel alike v v'.
  Proof.
    intros Hc. assert (G : Forall2 (fun p q : node * node => p.1 = q.1 /\ task_rel alike p.2 q.2) (filter (fun kv => value_of kv.1 = x) c) (filter (fun kv => value_of kv.1 = x) c')).
    { induction Hc as [|[k v] [k' v'] r r' [Hk Hv] _ IH]; [constructor|]. cbn [fst snd] in *. subst k'. rewrite !filter_cons. cbn [fst]. destruct (decide (value_of k = x)); [|exact IH]. constructor; [auto|exact IH]. }
    intros k v Hl. apply last_Some in Hl as [r E]. rewrite E in G. apply Forall2_app_inv_l in G as (r1 & r2 & _ & H2 & ->). inversion H2 as [|? [k' v'] ? ? [Hk Hv] H0]; subst. inversion H0; subst.
    cbn [fst snd] in *. subst k'. exists v'. rewrite last_snoc. auto.
  Qed.

  Lemma means_rel_to n n' s : doc_rel alike n n' -> means Y n s -> means Y n' s.
  Proof.
    intros Hd. destruct (Hd) as [->|(l & c & c' & -> & -> & Hc)]; [auto|]. intros (? & ? & [= <- <-] & Hall & H1 & H2 & H3 & H4 & H5 & H6 & H7).
    exists l, c'. split; [reflexivity|]. split; [eapply all_same; [exact Hc|apply section_ok_rel|exact Hall]|].
    assert (K : forall k, lit k <> lit "tasks" -> lit k <> lit "includes" -> forall v v', section_val alike (lit k) v v' -> v = v').
    { intros k Ht Hi v v' [E|[[Hx _]|[Hx _]]]; [exact E|contradiction|contradiction]. }
    rewrite <- !(map_same _ _ _ _ Hc) by (apply K; intros E; discriminate (lit_inj _ _ E)).
    rewrite <- !(bool_same _ _ _ _ Hc) by (apply K; intros E; discriminate (lit_inj _ _ E)).
    rewrite <- !(text_same _ _ _ _ Hc) by (apply K; intros E; discriminate (lit_inj _ _ E)).
    split; [exact H1|]. split; [exact H2|]. split; [exact H3|]. split; [exact H4|]. split; [exact H5|]. split.
    - intros x. rewrite H6. pose proof (entries_includes_rel _ _ Hc) as Hi. pose proof (under_rel (fun _ => alike) _ _ x Hi) as Hu. unfold field_at.
      generalize dependent (under (entries c' "includes") x). generalize (under (entries c "includes") x). clear. intros l l' Hu.
      induction Hu as [|v v' r r' Hv Hr IH]; [reflexivity|]. destruct Hr; [cbn; apply Hv|exact IH].
    - intros x t. rewrite H7. pose proof (entries_tasks_rel _ _ Hc) as He. split.
      + intros (k & v & Hl & Hm). destruct (last_rel _ _ _ He _ _ Hl) as (v' & Hl' & Hv). exists k, v'. split; [exact Hl'|]. eapply task_means_rel; eassumption.
      + intros (k & v & Hl & Hm). apply (entries_sym (fun _ => task_rel alike)) in He; [|intros _; apply task_sym, alike_sym].
        destruct (last_rel _ _ _ He _ _ Hl) as (v' & Hl' & Hv). exists k, v'. split; [exact Hl'|]. eapply task_means_rel; eassumption.
  Qed.
  Lemma means_rel n n' s : doc_rel alike n n' -> means Y n s <-> means Y n' s.
  Proof. intros H. split; apply means_rel_to; [exact H|]. apply doc_sym; [exact alike_sym|exact H]. Qed.
End Inv.

(** Relations can be weakened. *)
Lemma doc_rel_impl (R R' : node -> node -> Prop) : (forall v v', R v v' -> R' v v') -> forall n n', doc_rel R n n' -> doc_rel R' n n'.
Proof.
  intros HR.
  assert (HI : forall n n', item_rel R n n' -> item_rel R' n n').
  { fix IH 3. intros n n' [m|l c c' H]; [constructor|]. constructor. induction H as [|p q c c' [Hk Hv] _ IHl]; constructor; [|exact IHl]. split; [exact Hk|].
    destruct Hv as [E|[[Hx Hv]|(Hx & l' & its & its' & E1 & E2 & Hits)]]; [left; congruence|right; left; auto|]. right. right. split; [exact Hx|].
    exists l', its, its'. split; [exact E1|]. split; [exact E2|]. clear -IH Hits. induction Hits as [|x y xs ys Hxy _ IHl]; constructor; [exact (IH _ _ Hxy)|exact IHl]. }
  assert (HL : forall l l', Forall2 (item_rel R) l l' -> Forall2 (item_rel R') l l') by (induction 1; constructor; auto).
  assert (HT : forall v v', task_rel R v v' -> task_rel R' v v').
  { intros v v' [E|(l & c & c' & E1 & E2 & H)]; [left; exact E|right; exists l, c, c'; split; [exact E1|split; [exact E2|]]]. eapply Forall2_impl; [exact H|]. intros p q [Hk Hv]. split; [exact Hk|].
    destruct Hv as [?|[[? ?]|(? & ? & ? & ? & ? & ? & ?)]]; [left; assumption|right; left; auto|right; right; eauto 10]. }
  intros n n' [E|(l & c & c' & E1 & E2 & H)]; [left; exact E|right; exists l, c, c'; split; [exact E1|split; [exact E2|]]]. eapply Forall2_impl; [exact H|]. intros p q [Hk Hv]. split; [exact Hk|].
  destruct Hv as [?|[(Hx & l' & d & d' & ? & ? & Hd)|(Hx & l' & d & d' & ? & ? & Hd)]]; [left; assumption|right; left|right; right]; (split; [exact Hx|]; exists l', d, d'; split; [assumption|split; [assumption|]]);
    (eapply Forall2_impl; [exact Hd|]; intros ? ? [? ?]; auto).
Qed.

(** The contract of the library: [Decode] does not care whether an alias is written out. *)
Definition transparent (Y : yaml) : Prop := forall v v', resolves v v' -> alike Y v v'.

(** C59. Aliases for lists, numbers and includes, or anywhere inside them, may be written
    out without changing the result. Missing: the other positions, see below. *)
Theorem C59_aliases_transparent_partial Y n n' : transparent Y -> doc_rel resolves n n' ->
  forall s, unmarshal_node Y n = Ok s <-> unmarshal_node Y n' = Ok s.
Proof. intros HY H s. rewrite !unmarshal_node_spec. apply means_rel. eapply doc_rel_impl; [exact HY|exact H]. Qed.

(** The other positions. Where a text is expected an alias stands for the name of its anchor, whatever
    the anchor is at; *)
Theorem C59_text_alias_is_its_name Y l k l' a t t' :
  forall c, value_of k = lit "cmd" -> Forall (fun kv => entry_ok Y (value_of kv.1) kv.2 /\ ~ one_of ["parallel"; "cmd"; "task"; "log"; "prompt"] (value_of kv.1)) c -> a <> [] ->
  exists cr, c_cmd cr = a /\ becomes Y (YMap l ((k, YAlias l' a t) :: c)) (RCmd cr) /\ becomes Y (YMap l ((k, YAlias l' a t') :: c)) (RCmd cr).
Proof.
  intros c Hk Hc Ha.
  assert (N : forall x, In x ["parallel"; "cmd"; "task"; "log"; "prompt"]%string -> under c (lit x) = []).
  { intros x Hx. unfold under. destruct (filter (fun kv => value_of kv.1 = lit x) c) as [|p r] eqn:E; [reflexivity|]. exfalso.
    assert (Hp : p ∈ filter (fun kv => value_of kv.1 = lit x) c) by (rewrite E; apply elem_of_list_here). apply elem_of_list_filter in Hp as [Hp1 Hp2].
    rewrite Forall_forall in Hc. destruct (Hc _ Hp2) as [_ Hno]. apply Hno. rewrite Hp1. apply elem_of_list_fmap. exists x. split; [reflexivity|]. apply elem_of_list_In. exact Hx. }
  assert (U : forall t x, under ((k, YAlias l' a t) :: c) (lit x) = if decide (lit "cmd" = lit x) then YAlias l' a t :: under c (lit x) else under c (lit x)).
  { intros t0 x. unfold under. rewrite filter_cons. cbn [fst]. rewrite Hk. destruct (decide (lit "cmd" = lit x)); reflexivity. }
  assert (UF : forall t x, lit "cmd" <> lit x -> field ((k, YAlias l' a t) :: c) x = field c x) by (intros t0 x Hx; unfold field, field_at; rewrite U, decide_False by exact Hx; reflexivity).
  assert (UC : forall t, field ((k, YAlias l' a t) :: c) "cmd" = Some (YAlias l' a t)) by (intros t0; unfold field, field_at; rewrite U, decide_True by reflexivity; rewrite N by (simpl; tauto); reflexivity).
  assert (B : forall t, becomes Y (YMap l ((k, YAlias l' a t) :: c)) (RCmd (CmdRun l a (text c "dir") (map_of c "env") (bool_of Y c "silent") (bool_of Y c "output") (strs_of Y c "platforms") (text c "when")))).
  { intros t0. assert (K : the_kind Y ((k, YAlias l' a t0) :: c) "cmd").
    { split; [|split].
      - intros (kv & Hin & Hv). apply elem_of_cons in Hin as [->|Hin]; [cbn [fst] in Hv; rewrite Hk in Hv; discriminate (lit_inj _ _ Hv)|].
        rewrite Forall_forall in Hc. destruct (Hc _ Hin) as [_ Hno]. apply Hno. rewrite Hv. apply one_of_cons. auto.
      - constructor; [cbn [fst snd]; rewrite Hk; constructor; intros; keys|]. eapply Forall_impl; [exact Hc|]. intros kv [H _]. exact H.
      - intros k' Hin. unfold text. destruct (decide (lit "cmd" = lit k')) as [E|E].
        + apply lit_inj in E. subst k'. rewrite UC. cbn [value_of]. tauto.
        + rewrite UF by exact E. unfold field, field_at. rewrite N by (simpl in *; tauto). cbn. split; [congruence|]. intros ->. congruence. }
    pose proof (B_cmd Y l _ K) as Hb. unfold text, map_of, bool_of, strs_of in Hb. rewrite UC in Hb. rewrite !UF in Hb by (intros E; discriminate (lit_inj _ _ E)). exact Hb. }
  eexists. split; [|split; [apply B|apply B]]. reflexivity.
Qed.

(** ... and where a mapping, a list of items, a truth value or a directory is expected, it is rejected. *)
Theorem C59_alias_elsewhere_rejected Y l a t x : let v := YAlias l a t in
  (one_of ["dir"; "env"; "silent"; "output"; "confirm"] x -> ~ entry_ok Y x v) /\
  (one_of ["parallel"; "mode"; "color"; "silent"; "output"] x -> ~ block_entry_ok Y x v) /\
  (one_of ["vars"; "env"; "silent"; "output"; "dir"; "run"] x -> ~ task_entry_ok Y x v) /\
  (one_of ["vars"; "env"; "silent"; "output"; "dir"; "tasks"; "includes"] x -> ~ section_ok Y x v) /\
  (forall it, ~ becomes Y v it) /\ (forall k task, ~ task_means Y k v task) /\ (forall s, ~ means Y v s).
Proof.
  intros v.
  assert (Sc : ~ scalar v) by (intros []). assert (Bo : ~ bool_ok Y v) by (intros [[] _]). assert (Ma : ~ str_map_ok v) by (intros (? & ? & ? & _); discriminate).
  split; [|split; [|split; [|split; [|split; [|split]]]]].
  - intros Hx [Hd He Hb Hp Hs Hi]. apply one_of_cons in Hx as [->|Hx]; [auto|]. apply one_of_cons in Hx as [->|Hx]; [auto|]. apply Bo, Hb. exact Hx.
  - intros Hx [Hk Hi Hm Hl Hb Hp]. apply one_of_cons in Hx as [->|Hx]; [destruct (Hi eq_refl) as (? & ? & ?); discriminate|]. apply one_of_cons in Hx as [->|Hx]; [apply Sc, (Hm eq_refl)|]. apply Bo, Hb. exact Hx.
  - intros Hx [Hs Hm Hb Hd Hr]. do 2 (apply one_of_cons in Hx as [->|Hx]; [apply Ma, Hm; one|]). do 2 (apply one_of_cons in Hx as [->|Hx]; [apply Bo, Hb; one|]).
    apply one_of_cons in Hx as [->|Hx]; [auto|]. apply one_of_cons in Hx as [->|Hx]; [destruct (Hr eq_refl) as (? & ? & ? & _); discriminate|]. apply one_of_nil in Hx as [].
  - intros Hx [Hm Hb Hd Ht Hi]. do 2 (apply one_of_cons in Hx as [->|Hx]; [apply Ma, Hm; one|]). do 2 (apply one_of_cons in Hx as [->|Hx]; [apply Bo, Hb; one|]).
    apply one_of_cons in Hx as [->|Hx]; [auto|]. apply one_of_cons in Hx as [->|Hx]; [destruct (Ht eq_refl) as (? & ? & ? & _); discriminate|].
    apply one_of_cons in Hx as [->|Hx]; [destruct (Hi eq_refl) as (? & ? & ? & _); discriminate|]. apply one_of_nil in Hx as [].
  - intros it H. inversion H.
  - intros k task (? & ? & ? & _). discriminate.
  - intros s (? & ? & ? & _). discriminate.
Qed.

(** ** Cases. *)
Lemma resolves_target v v' : resolves v v' -> resolves (target v) (target v') /\ (forall s, plain v = Some s <-> plain v' = Some s).
Proof.
  induction 1 as [n|l a t t' _ IH|l its its' H|l c c' H].
  - split; [constructor|reflexivity].
  - exact IH.
  - cbn [target]. split; [constructor; exact H|reflexivity].
  - cbn [target]. split; [constructor; exact H|reflexivity].
Qed.
Lemma option_ext {A} (x y : option A) : (forall a, x = Some a <-> y = Some a) -> x = y.
Proof. intros H. destruct x as [a|]; [symmetry; apply H; reflexivity|]. destruct y as [a|]; [|reflexivity]. apply H. reflexivity. Qed.
Lemma resolves_plain v v' : resolves v v' -> plain v = plain v'.
Proof. intros H. apply option_ext. apply resolves_target. exact H. Qed.
Lemma target_no_alias n l a t : target n <> YAlias l a t.
Proof. induction n; cbn; try discriminate. assumption. Qed.
Lemma toy_transparent doc : transparent (toy doc).
Proof.
  intros v v' H. pose proof (resolves_plain _ _ H) as Hp. destruct (resolves_target _ _ H) as [Ht _]. split; [|split]; cbn [y_strs y_int y_include toy].
  - inversion Ht as [|? ? ? ? ? E|? its its' Hi|]; subst; [reflexivity|exfalso; eapply target_no_alias; symmetry; exact E| |reflexivity].
    clear -Hi. induction Hi as [|x y xs ys Hxy _ IH]; [reflexivity|]. cbn. rewrite (resolves_plain _ _ Hxy), IH. reflexivity.
  - rewrite Hp. reflexivity.
  - inversion Ht as [|? ? ? ? ? E| |? c c' Hc]; subst; [reflexivity|exfalso; eapply target_no_alias; symmetry; exact E|reflexivity|].
    pose proof (field_rel (fun _ => resolves) c c' "babfile" Hc) as Hf. destruct Hf as [w w' Hw|]; [|reflexivity]. cbn. apply resolves_plain. exact Hw.
Qed.

(** Platforms, dependencies and an include behind aliases: accepted, and as when written out. *)
Definition hidden_list (alias : bool) : node :=
  let ps := seq 1 [sc 1 "linux"; sc 1 "darwin"] in
  mp 1 [ kv 1 "x-unix" ps
       ; kv 2 "tasks" (mp 3 [kv 3 "a" (mp 4 [kv 4 "run" (seq 5 [mp 5 [kv 5 "cmd" (sc 5 "make"); kv 6 "platforms" (if alias then YAlias 6 (lit "unix") ps else ps)]])])])].
Example hidden_list_same : (exists s, unmarshal_node Y0 (hidden_list true) = Ok s) /\
  forall s, unmarshal_node Y0 (hidden_list true) = Ok s <-> unmarshal_node Y0 (hidden_list false) = Ok s.
Proof.
  split; [eexists; vm_compute; reflexivity|]. apply C59_aliases_transparent_partial; [apply toy_transparent|].
  right. eexists _, _, _. split; [reflexivity|]. split; [reflexivity|]. constructor; [split; [reflexivity|left; reflexivity]|]. constructor; [|constructor].
  split; [reflexivity|]. right. left. split; [reflexivity|]. eexists _, _, _. split; [reflexivity|]. split; [reflexivity|]. constructor; [|constructor].
  split; [reflexivity|]. right. eexists _, _, _. split; [reflexivity|]. split; [reflexivity|]. constructor; [|constructor].
  split; [reflexivity|]. right. right. split; [reflexivity|]. eexists _, _, _. split; [reflexivity|]. split; [reflexivity|]. constructor; [|constructor].
  apply item_rel_map. constructor; [split; [reflexivity|left; reflexivity]|]. constructor; [|constructor].
  split; [reflexivity|]. right. left. split; [apply one_of_cons; left; reflexivity|]. apply res_alias. constructor.
Qed.

(** The full claim of C59 is false: a command behind an alias becomes the name of the anchor. *)
Definition hidden_cmd (alias : bool) : node :=
  mp 1 [kv 1 "tasks" (mp 2 [kv 2 "a" (mp 3 [kv 3 "run" (seq 4 [mp 4 [kv 4 "cmd" (if alias then YAlias 4 (lit "build") (sc 4 "make all") else sc 4 "make all")]])])])].
Theorem C59_written_out_differs_refuted : exists Y n n' s s', transparent Y /\ resolves n n' /\
  unmarshal_node Y n = Ok s /\ unmarshal_node Y n' = Ok s' /\ s <> s' /\
  t_run <$> f_tasks s !! lit "a" = Some [RCmd (CmdRun 4 (lit "build") [] None None None [] [])] /\
  t_run <$> f_tasks s' !! lit "a" = Some [RCmd (CmdRun 4 (lit "make all") [] None None None [] [])].
Proof.
  exists Y0, (hidden_cmd true), (hidden_cmd false). eexists _, _. split; [apply toy_transparent|]. split.
  { repeat first [apply res_same|apply res_alias|apply res_seq|apply res_map|constructor]. }
  split; [vm_compute; reflexivity|]. split; [vm_compute; reflexivity|].
  match goal with |- ?x <> ?y /\ ?A /\ ?B => assert (HA : A) by (vm_compute; reflexivity); assert (HB : B) by (vm_compute; reflexivity); split; [|auto] end.
  intros E. rewrite E, HB in HA. vm_compute in HA. discriminate.
Qed.
Example hidden_cmd_name : exists cr, c_cmd cr = lit "build" /\ becomes Y0 (mp 4 [kv 4 "cmd" (YAlias 4 (lit "build") (sc 4 "make all")); kv 5 "dir" (sc 5 "src")]) (RCmd cr).
Proof.
  destruct (C59_text_alias_is_its_name Y0 4 (sc 4 "cmd") 4 (lit "build") (sc 4 "make all") (sc 4 "x") [kv 5 "dir" (sc 5 "src")]) as (cr & H1 & H2 & _); [reflexivity| |discriminate|eauto].
  constructor; [|constructor]. change (value_of (kv 5 "dir" (sc 5 "src")).1) with (lit "dir"). split; [constructor; intros Hz; try exact I; exfalso; keys|]. intros Hz. keys.
Qed.

Print Assumptions C59_aliases_transparent_partial.
Print Assumptions C59_text_alias_is_its_name.
Print Assumptions C59_alias_elsewhere_rejected.
Print Assumptions C59_written_out_differs_refuted.
