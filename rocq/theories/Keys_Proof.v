(** The order of keys does not matter: every part of the meaning of a document is
    read through the one entry a key has. *)
From Verif Require Import Base Types_Model Include_Model Doc_Model Doc_Spec Doc_Proof Doc_Item Doc_Tree Doc_File Keys_Spec.

Definition near (v v' : node) : Prop := reordered v v' \/ reordered v' v.
Definition at_key (c : list (node * node)) (x : str) : list (node * node) := filter (fun kv => value_of kv.1 = x) c.
(** Two mappings with the same keys, each once, and related values. *)
Definition alike (c e : list (node * node)) : Prop := forall x,
  (at_key c x = [] /\ at_key e x = []) \/
  exists k v v', at_key c x = [(k, v)] /\ at_key e x = [(k, v')] /\ near v v'.

Lemma near_sym v v' : near v v' -> near v' v. Proof. unfold near. tauto. Qed.
Lemma alike_sym c e : alike c e -> alike e c.
Proof. intros H x. destruct (H x) as [[A B]|(k & v & v' & A & B & N)]; [left; auto|right; exists k, v', v; auto using near_sym]. Qed.

Lemma at_key_nodup c x : NoDup (map (fun kv => value_of kv.1) c) -> at_key c x = [] \/ exists a, at_key c x = [a].
Proof.
  induction c as [|a c IH]; [left; reflexivity|]. cbn [map]. intros [Hn Hd]%NoDup_cons. unfold at_key. rewrite filter_cons.
  destruct (decide (value_of a.1 = x)) as [E|E]; [|apply (IH Hd)]. right. exists a. f_equal.
  destruct (at_key c x) as [|b r] eqn:Eb; [exact Eb|]. exfalso. assert (Hb : b ∈ at_key c x) by (rewrite Eb; left).
  unfold at_key in Hb. apply elem_of_list_filter in Hb as [Hb1 Hb2]. apply Hn. subst x. rewrite <- Hb1. exact (elem_of_list_fmap_1 (fun kv : node * node => value_of kv.1) _ _ Hb2).
Qed.
Lemma at_key_Forall2 (R : node -> node -> Prop) c d x : Forall2 (fun a b => a.1 = b.1 /\ R a.2 b.2) c d ->
  Forall2 (fun a b => a.1 = b.1 /\ R a.2 b.2) (at_key c x) (at_key d x).
Proof.
  induction 1 as [|a b c d [E N] H IH]; [constructor|]. unfold at_key. rewrite !filter_cons, <- E.
  destruct (decide (value_of a.1 = x)); [constructor; [auto|exact IH]|exact IH].
Qed.
Lemma map_alike c d e : NoDup (map (fun kv : node * node => value_of kv.1) c) ->
  Forall2 (fun a b => a.1 = b.1 /\ reordered a.2 b.2) c d -> d ≡ₚ e -> alike c e.
Proof.
  intros Hn Hf Hp x. pose proof (at_key_Forall2 reordered c d x Hf) as Hx.
  assert (Hq : at_key d x ≡ₚ at_key e x) by (unfold at_key; rewrite Hp; reflexivity).
  destruct (at_key_nodup c x Hn) as [E|[[k v] E]]; rewrite E in Hx.
  - apply Forall2_nil_inv_l in Hx. rewrite Hx in Hq. left. split; [exact E|]. apply Permutation_nil in Hq. exact Hq.
  - apply Forall2_cons_inv_l in Hx as ([k' v'] & r & [E1 N] & Hr & Ed). apply Forall2_nil_inv_l in Hr as ->. cbn in E1, N. subst k'.
    rewrite Ed in Hq. apply Permutation_singleton_l in Hq; symmetry in Hq. right. exists k, v, v'. split; [exact E|]. split; [exact Hq|left; exact N].
Qed.

Inductive shape : node -> node -> Prop :=
| sh_same n : shape n n
| sh_seq l xs ys : Forall2 near xs ys -> shape (YSeq l xs) (YSeq l ys)
| sh_map l c e : alike c e -> shape (YMap l c) (YMap l e)
| sh_alias l a t t' : shape (YAlias l a t) (YAlias l a t').
Lemma near_shape v v' : near v v' -> shape v v'.
Proof.
  intros [H|H]; destruct H.
  - constructor. - constructor. eapply Forall2_impl; [eassumption|]. intros ? ? ?; left; assumption.
  - constructor. eapply map_alike; eassumption. - constructor.
  - constructor. - constructor. apply Forall2_flip. eapply Forall2_impl; [eassumption|]. intros ? ? ?; right; assumption.
  - constructor. apply alike_sym. eapply map_alike; eassumption. - constructor.
Qed.

Lemma value_near v v' : near v v' -> value_of v = value_of v'.
Proof. intros H%near_shape. destruct H; reflexivity. Qed.
Lemma scalar_near v v' : near v v' -> scalar v -> scalar v'.
Proof. intros H%near_shape. destruct H; auto. Qed.

Lemma field_at_alike c e x : alike c e ->
  (field_at c x = None /\ field_at e x = None) \/ exists v v', field_at c x = Some v /\ field_at e x = Some v' /\ near v v'.
Proof.
  intros H. unfold field_at, under. change (filter _ c) with (at_key c x). change (filter _ e) with (at_key e x).
  destruct (H x) as [[-> ->]|(k & v & v' & -> & -> & N)]; [left; auto|right; exists v, v'; auto].
Qed.
Lemma text_alike c e k : alike c e -> text c k = text e k.
Proof. intros H. unfold text, field. destruct (field_at_alike c e (lit k) H) as [[-> ->]|(v & v' & -> & -> & N)]; [reflexivity|apply value_near, N]. Qed.
Lemma key_at_alike c e k : alike c e -> key_at c k = key_at e k.
Proof.
  intros H. unfold key_at. change (filter _ c) with (at_key c (lit k)). change (filter _ e) with (at_key e (lit k)).
  destruct (H (lit k)) as [[-> ->]|(k' & v & v' & -> & -> & N)]; reflexivity.
Qed.
Lemma in_alike c e kv : alike c e -> kv ∈ e -> exists v, (kv.1, v) ∈ c /\ near v kv.2.
Proof.
  intros H Hin. destruct kv as [k v']. assert (Hf : (k, v') ∈ at_key e (value_of k)) by (unfold at_key; apply elem_of_list_filter; auto).
  destruct (H (value_of k)) as [[_ E]|(k0 & v & v0 & Ec & Ee & N)]; [rewrite E in Hf; apply elem_of_nil in Hf; contradiction|].
  rewrite Ee in Hf. apply elem_of_list_singleton in Hf as [= <- <-]. exists v. split; [|exact N].
  assert (Hc : (k, v) ∈ at_key c (value_of k)) by (rewrite Ec; left). unfold at_key in Hc. apply elem_of_list_filter in Hc as [_ Hc]. exact Hc.
Qed.
Lemma all_alike (P : node -> node -> Prop) c e : alike c e -> (forall k v v', near v v' -> P k v -> P k v') ->
  Forall (fun kv => P kv.1 kv.2) c -> Forall (fun kv => P kv.1 kv.2) e.
Proof.
  intros H HP Hc. rewrite Forall_forall in *. intros kv Hin. destruct (in_alike c e kv H Hin) as (v & Hv & N).
  apply (HP _ _ _ N). exact (Hc _ Hv).
Qed.
Lemma has_alike c e k : alike c e -> has e k -> has c k.
Proof. intros H (kv & Hin & E). destruct (in_alike c e kv H Hin) as (v & Hv & _). exists (kv.1, v). auto. Qed.

Lemma str_map_ok_near v v' : near v v' -> str_map_ok v -> str_map_ok v'.
Proof.
  intros H%near_shape. destruct H as [n|l xs ys _|l c e H|l a t t']; [auto|intros (? & ? & [=] & _)| |intros (? & ? & [=] & _)].
  intros (l0 & c0 & [= <- <-] & Hs). exists l, e. split; [reflexivity|].
  exact (all_alike (fun _ v => scalar v) c e H (fun _ _ _ N => scalar_near _ _ N) Hs).
Qed.

Lemma alike_nodup c e : alike c e -> NoDup (map (fun kv => value_of kv.1) e).
Proof.
  intros H. assert (G : forall x, length (at_key e x) <= 1).
  { intros x. destruct (H x) as [[_ ->]|(k & v & v' & _ & -> & _)]; cbn; lia. }
  clear H. induction e as [|a e IH]; [constructor|]. cbn [map]. apply NoDup_cons. split.
  - intros (b & E & Hb)%elem_of_list_fmap. specialize (G (value_of a.1)). unfold at_key in G. rewrite filter_cons, decide_True in G by reflexivity.
    cbn in G. assert (Hf : b ∈ filter (fun kv : node * node => value_of kv.1 = value_of a.1) e) by (apply elem_of_list_filter; auto).
    destruct (filter _ e); [apply elem_of_nil in Hf; contradiction|cbn in G; lia].
  - apply IH. intros x. specialize (G x). unfold at_key in *. rewrite filter_cons in G. destruct (decide _); cbn in G; lia.
Qed.

Lemma str_map_lookup l c x : NoDup (map (fun kv => value_of kv.1) c) ->
  str_map (YMap l c) !! x = value_of <$> field_at c x.
Proof.
  intros Hn. cbn [str_map]. unfold field_at, under. change (filter _ c) with (at_key c x).
  assert (Hr : NoDup (reverse (map (fun kv : node * node => (value_of kv.1, value_of kv.2)) c)).*1).
  { rewrite fmap_reverse, reverse_Permutation. change (NoDup (map fst (map (fun kv : node * node => (value_of kv.1, value_of kv.2)) c))). rewrite map_map. exact Hn. }
  destruct (at_key_nodup c x Hn) as [E|[[k v] E]]; rewrite E; cbn.
  - apply not_elem_of_list_to_map_1. rewrite fmap_reverse, elem_of_reverse. intros (p & -> & Hp)%elem_of_list_fmap.
    apply elem_of_list_fmap in Hp as (kv & -> & Hk). cbn in E.
    assert (Hf : kv ∈ at_key c (value_of kv.1)) by (unfold at_key; apply elem_of_list_filter; auto). rewrite E in Hf. apply elem_of_nil in Hf. exact Hf.
  - assert (Hc : (k, v) ∈ at_key c x) by (rewrite E; left). unfold at_key in Hc. apply elem_of_list_filter in Hc as [<- Hc]. cbn.
    apply elem_of_list_to_map_1; [exact Hr|]. rewrite elem_of_reverse. apply elem_of_list_fmap. exists (k, v). auto.
Qed.
Lemma str_map_near v v' : near v v' -> str_map v = str_map v'.
Proof.
  intros H%near_shape. destruct H as [n|l xs ys _|l c e H|l a t t']; try reflexivity.
  apply map_eq. intros x. rewrite (str_map_lookup l c x), (str_map_lookup l e x) by (eapply alike_nodup; first [eassumption|apply alike_sym; eassumption]).
  destruct (field_at_alike c e x H) as [[-> ->]|(v & v' & -> & -> & N)]; [reflexivity|]. cbn. f_equal. apply value_near, N.
Qed.
Lemma map_of_alike c e k : alike c e -> map_of c k = map_of e k.
Proof.
  intros H. unfold map_of, field. destruct (field_at_alike c e (lit k) H) as [[-> ->]|(v & v' & -> & -> & N)]; [reflexivity|]. cbn. f_equal. apply str_map_near, N.
Qed.
Lemma label_near v v' : near v v' -> label v = label v'.
Proof.
  intros H%near_shape. destruct H as [n|l xs ys _|l c e H|l a t t']; try reflexivity. cbn [label]. unfold under.
  change (filter _ c) with (at_key c (lit "label")). change (filter _ e) with (at_key e (lit "label")).
  destruct (H (lit "label")) as [[-> ->]|(k & v & v' & -> & -> & N)]; [reflexivity|apply value_near, N].
Qed.

Section Meaning.
  Context (Y : yaml) (OB : order_blind Y).

  Lemma strs_near v v' : near v v' -> y_strs Y v = y_strs Y v'. Proof. intros [H|H]; [|symmetry]; apply (ob_strs Y OB); exact H. Qed.
  Lemma bool_near v v' : near v v' -> y_bool Y v = y_bool Y v'. Proof. intros [H|H]; [|symmetry]; apply (ob_bool Y OB); exact H. Qed.
  Lemma int_near v v' : near v v' -> y_int Y v = y_int Y v'. Proof. intros [H|H]; [|symmetry]; apply (ob_int Y OB); exact H. Qed.
  Lemma include_near v v' : near v v' -> y_include Y v = y_include Y v'. Proof. intros [H|H]; [|symmetry]; apply (ob_include Y OB); exact H. Qed.

  Lemma bind_alike {A} (f : node -> option A) c e x : (forall v v', near v v' -> f v = f v') -> alike c e -> field_at c x ≫= f = field_at e x ≫= f.
  Proof. intros Hf H. destruct (field_at_alike c e x H) as [[-> ->]|(v & v' & -> & -> & N)]; [reflexivity|]. cbn. apply Hf, N. Qed.
  Lemma bool_of_alike c e k : alike c e -> bool_of Y c k = bool_of Y e k. Proof. apply bind_alike, bool_near. Qed.
  Lemma int_of_alike c e k : alike c e -> int_of Y c k = int_of Y e k. Proof. apply bind_alike, int_near. Qed.
  Lemma strs_of_alike c e k : alike c e -> strs_of Y c k = strs_of Y e k.
  Proof. intros H. unfold strs_of. f_equal. revert H. apply bind_alike, strs_near. Qed.

  Lemma bool_ok_near v v' : near v v' -> bool_ok Y v -> bool_ok Y v'.
  Proof. intros N [A B]. split; [exact (scalar_near _ _ N A)|rewrite <- (bool_near _ _ N); exact B]. Qed.
  Lemma platforms_ok_near v v' : near v v' -> platforms_ok Y v -> platforms_ok Y v'.
  Proof. intros N (ps & A & B). exists ps. rewrite <- (strs_near _ _ N). auto. Qed.
  Lemma entry_ok_near k v v' : near v v' -> entry_ok Y k v -> entry_ok Y k v'.
  Proof.
    intros N [A B C D E F]. split; intros K.
    - exact (scalar_near _ _ N (A K)). - exact (str_map_ok_near _ _ N (B K)). - exact (bool_ok_near _ _ N (C K)).
    - exact (platforms_ok_near _ _ N (D K)). - rewrite <- (strs_near _ _ N). auto. - rewrite <- (int_near _ _ N). auto.
  Qed.
  Lemma block_entry_ok_near k v v' : near v v' -> block_entry_ok Y k v -> block_entry_ok Y k v'.
  Proof.
    intros N [A B C D E F]. split; [exact A|..]; intros K.
    - destruct (B K) as (l & its & ->). apply near_shape in N. inversion N; eauto.
    - rewrite <- (value_near _ _ N). split; [exact (scalar_near _ _ N (proj1 (C K)))|exact (proj2 (C K))].
    - rewrite <- (int_near _ _ N). auto. - exact (bool_ok_near _ _ N (E K)). - exact (platforms_ok_near _ _ N (F K)).
  Qed.
  Lemma the_kind_alike c e k : alike c e -> the_kind Y c k -> the_kind Y e k.
  Proof.
    intros H (A & B & C). split; [intros K; exact (A (has_alike _ _ _ H K))|]. split.
    - exact (all_alike (fun k v => entry_ok Y (value_of k) v) c e H (fun _ _ _ => entry_ok_near _ _ _) B).
    - intros k'. rewrite <- (text_alike c e k' H). apply C.
  Qed.

  Ltac same_fields H :=
    rewrite ?(text_alike _ _ _ H), ?(map_of_alike _ _ _ H), ?(bool_of_alike _ _ _ H), ?(strs_of_alike _ _ _ H), ?(int_of_alike _ _ _ H).

  Lemma becomes_simple v v' it : near v v' -> simple it -> becomes Y v it -> becomes Y v' it.
  Proof.
    intros N%near_shape S B. destruct B as [l c K|l c K|l c K L|l c p K E P|l c l' its items]; cbn in S; try contradiction;
      inversion N as [| |l0 c0 e H|]; subst; try (constructor; assumption); same_fields H.
    - apply B_cmd. exact (the_kind_alike _ _ _ H K).
    - apply B_task. exact (the_kind_alike _ _ _ H K).
    - apply B_log; [exact (the_kind_alike _ _ _ H K)|]. rewrite <- (text_alike _ _ _ H). exact L.
  Qed.
  Lemma becomes_near v v' it : near v v' -> becomes Y v it -> becomes Y v' it.
  Proof.
    intros N B. destruct it as [cm|tk|lg|p|o items]; try (refine (becomes_simple v v' _ N _ B); exact I).
    - apply near_shape in N. inversion B as [| | |l c p0 K E P|]; subst. inversion N as [| |l0 c0 e H|]; subst; [exact B|].
      eapply B_prompt; [exact (the_kind_alike _ _ _ H K)| |exact P]. same_fields H. reflexivity.
    - apply near_shape in N. inversion B as [| | | |l c l' its items0 K F Hn Hi Hs]; subst. inversion N as [| |l0 c0 e H|]; subst; [exact B|].
      destruct (field_at_alike c e (lit "parallel") H) as [[E _]|(v & v' & E & E' & N')]; [unfold field in F; congruence|].
      unfold field in F. rewrite F in E. injection E as <-. apply near_shape in N'. same_fields H.
      assert (Hb : Forall (fun kv => block_entry_ok Y (value_of kv.1) kv.2) e)
        by exact (all_alike (fun k v => block_entry_ok Y (value_of k) v) c e H (fun _ _ _ => block_entry_ok_near _ _ _) K).
      assert (Hx : exists its', v' = YSeq l' its' /\ Forall2 near its its').
      { inversion N' as [n E1 E2|? ? ys Hy| |]; subst; [|eauto]. exists its. split; [reflexivity|]. clear.
        induction its; constructor; [left; constructor|assumption]. }
      destruct Hx as (its' & -> & Hy).
      assert (El : map label its = map label its') by (clear - Hy; induction Hy; cbn; f_equal; auto using label_near).
      rewrite El. apply (B_par Y l e l' its' items Hb E').
      + intros ->. apply Forall2_nil_inv_r in Hy. auto.
      + clear - OB Hy Hi Hs. revert items Hi Hs. induction Hy as [|a b xs ys Hab Hxy IH]; intros items Hi Hs; inversion Hi; subst; [constructor|].
        apply Forall_cons in Hs as [Hs1 Hs2]. constructor; [eapply becomes_simple; eassumption|apply IH; assumption].
      + exact Hs.
  Qed.
  Lemma all_become xs ys its : Forall2 near xs ys -> Forall2 (becomes Y) xs its -> Forall2 (becomes Y) ys its.
  Proof.
    intros H. revert its. induction H; intros its Hi; inversion Hi; subst; constructor; [eapply becomes_near; eassumption|auto].
  Qed.
  Lemma near_refl n : near n n. Proof. left. constructor. Qed.
  Lemma near_seq l xs v' : near (YSeq l xs) v' -> exists ys, v' = YSeq l ys /\ Forall2 near xs ys.
  Proof.
    intros N%near_shape. inversion N; subst; [|eauto]. exists xs. split; [reflexivity|]. clear.
    induction xs; constructor; [apply near_refl|assumption].
  Qed.

  Lemma task_entry_ok_near k v v' : near v v' -> task_entry_ok Y k v -> task_entry_ok Y k v'.
  Proof.
    intros N [A B C D E]. split; intros K.
    - rewrite <- (strs_near _ _ N). auto. - exact (str_map_ok_near _ _ N (B K)). - exact (bool_ok_near _ _ N (C K)). - exact (scalar_near _ _ N (D K)).
    - destruct (E K) as (l & its & -> & F). destruct (near_seq _ _ _ N) as (ys & -> & Hy). exists l, ys. split; [reflexivity|].
      clear - OB Hy F. induction Hy; [constructor|]. apply Forall_cons in F as [[it F1] F2]. constructor; [exists it; eapply becomes_near; eassumption|auto].
  Qed.
  Lemma task_means_near k v v' t : near v v' -> task_means Y k v t -> task_means Y k v' t.
  Proof.
    intros N (l & c & -> & F & E & R). pose proof (near_shape _ _ N) as Sh. inversion Sh as [| |l0 c0 e H|]; subst; [exists l, c; auto|].
    exists l, e. split; [reflexivity|]. split; [exact (all_alike (fun k v => task_entry_ok Y (value_of k) v) c e H (fun _ _ _ => task_entry_ok_near _ _ _) F)|].
    split; [rewrite E at 1; rewrite (key_at_alike _ _ _ H); same_fields H; reflexivity|].
    unfold field in *. destruct (field_at_alike c e (lit "run") H) as [[Ec Ee]|(v & v' & Ec & Ee & N')]; rewrite Ec in R; rewrite Ee; [exact R|].
    destruct R as (l' & its & -> & Hi). destruct (near_seq _ _ _ N') as (ys & -> & Hy). exists l', ys. split; [reflexivity|exact (all_become _ _ _ Hy Hi)].
  Qed.

  Lemma section_ok_near k v v' : near v v' -> section_ok Y k v -> section_ok Y k v'.
  Proof.
    intros N [A B C D E]. split; intros K.
    - exact (str_map_ok_near _ _ N (A K)). - exact (bool_ok_near _ _ N (B K)). - exact (scalar_near _ _ N (C K)).
    - destruct (D K) as (l & es & -> & Hn & F). pose proof (near_shape _ _ N) as Sh. inversion Sh as [| |l0 c0 e H|]; subst; [exists l, es; auto|].
      exists l, e. split; [reflexivity|]. split; [exact (alike_nodup es e H)|].
      refine (all_alike (fun k v => exists t, task_means Y k v t) es e H _ F). intros k v v' Nv [t Ht]. exists t. exact (task_means_near _ _ _ _ Nv Ht).
    - destruct (E K) as (l & es & -> & F). pose proof (near_shape _ _ N) as Sh. inversion Sh as [| |l0 c0 e H|]; subst; [exists l, es; auto|].
      exists l, e. split; [reflexivity|]. refine (all_alike (fun _ v => is_Some (y_include Y v)) es e H _ F).
      intros _ v v' Nv. rewrite (include_near _ _ Nv). auto.
  Qed.

  (** The entries of a section: those of one mapping. *)
  Lemma entries_alike c e k : alike c e -> entries c k = entries e k \/ alike (entries c k) (entries e k).
  Proof.
    intros H. unfold entries, under. change (filter _ c) with (at_key c (lit k)). change (filter _ e) with (at_key e (lit k)).
    destruct (H (lit k)) as [[-> ->]|(k' & v & v' & -> & -> & N)]; [left; reflexivity|]. apply near_shape in N. cbn. rewrite !app_nil_r.
    destruct N; auto.
  Qed.

  Lemma means_near n n' s : near n n' -> means Y n s -> means Y n' s.
  Proof.
    intros N (l & c & -> & F & V & En & Si & Ou & Di & In & Ta). pose proof (near_shape _ _ N) as Sh.
    inversion Sh as [| |l0 c0 e H|]; subst; [exists l, c; auto 10|]. exists l, e. split; [reflexivity|].
    split; [exact (all_alike (fun k v => section_ok Y (value_of k) v) c e H (fun _ _ _ => section_ok_near _ _ _) F)|].
    rewrite <- !(map_of_alike c e _ H), <- !(bool_of_alike c e _ H), <- !(text_alike c e _ H).
    do 5 (split; [assumption|]). split.
    - intros x. rewrite In. destruct (entries_alike c e "includes" H) as [->|He]; [reflexivity|]. apply bind_alike; [exact include_near|exact He].
    - intros x t. rewrite Ta. destruct (entries_alike c e "tasks" H) as [->|He]; [reflexivity|].
      change (filter _ (entries c "tasks")) with (at_key (entries c "tasks") x). change (filter _ (entries e "tasks")) with (at_key (entries e "tasks") x).
      destruct (He x) as [[-> ->]|(k & v & v' & -> & -> & Nv)]; [reflexivity|]. cbn. split; intros (k0 & v0 & [= <- <-] & Ht).
      + exists k, v'. split; [reflexivity|exact (task_means_near _ _ _ _ Nv Ht)].
      + exists k, v. split; [reflexivity|exact (task_means_near _ _ _ _ (near_sym _ _ Nv) Ht)].
  Qed.
End Meaning.
