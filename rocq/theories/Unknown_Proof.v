(** What unknown keys change: nothing, outside parallel blocks. *)
From Verif Require Import Base Types_Model Include_Model Doc_Model Doc_Spec Doc_Proof Doc_Item Doc_Tree Doc_File Unknown_Spec.

Definition at_key (c : list (node * node)) (x : str) : list (node * node) := filter (fun kv => value_of kv.1 = x) c.

Lemma at_key_known keys c x : x ∈ map lit keys -> at_key (known keys c) x = at_key c x.
Proof.
  intros Hx. unfold at_key, known. induction c as [|a c IH]; [reflexivity|]. rewrite (filter_cons _ a c).
  destruct (decide (value_of a.1 ∈ map lit keys)) as [Hk|Hk].
  - rewrite !filter_cons. destruct (decide (value_of a.1 = x)); [f_equal|]; exact IH.
  - rewrite filter_cons. destruct (decide (value_of a.1 = x)) as [E|E]; [subst x; contradiction|exact IH].
Qed.
Lemma same_at_key P c d x : same_entries P c d -> same_entries P (at_key c x) (at_key d x).
Proof.
  induction 1 as [|a b c d [E N] H IH]; [constructor|]. unfold at_key. rewrite !filter_cons, <- E.
  destruct (decide (value_of a.1 = x)); [constructor; [auto|exact IH]|exact IH].
Qed.
Lemma same_entries_sym (P : str -> node -> node -> Prop) c d : (forall k v v', P k v v' -> P k v' v) -> same_entries P c d -> same_entries P d c.
Proof. intros HP. induction 1 as [|a b c d [E N] H IH]; [constructor|]. constructor; [|exact IH]. split; [auto|]. destruct N as [N|N]; [left; auto|right; rewrite <- E; auto]. Qed.
Lemma same_entries_refl P c : same_entries P c c.
Proof. induction c; constructor; auto. Qed.
Lemma same_in P c d b : same_entries P c d -> b ∈ d -> exists v, (b.1, v) ∈ c /\ (v = b.2 \/ P (value_of b.1) v b.2).
Proof.
  induction 1 as [|[k v] b' c d [E N] H IH]; intros Hb; [apply elem_of_nil in Hb; contradiction|]. cbn in E, N. subst k.
  apply elem_of_cons in Hb as [->|Hb]; [exists v; split; [left|auto]|]. destruct (IH Hb) as (w & Hw & Nw). exists w. split; [right; exact Hw|exact Nw].
Qed.
Lemma under_at_key c x : under c x = (at_key c x).*2. Proof. reflexivity. Qed.

Lemma same_under (P : str -> node -> node -> Prop) c d x : same_entries P c d -> (forall v v', ~ P x v v') -> under c x = under d x.
Proof.
  intros H HP. rewrite !under_at_key. pose proof (same_at_key P c d x H) as G.
  assert (Hk : Forall (fun a => value_of a.1 = x) (at_key c x)) by (unfold at_key; apply Forall_forall; intros a Ha; apply elem_of_list_filter in Ha; apply Ha).
  induction G as [|a b l l' [E [N|N]] G IH]; [reflexivity|..]; apply Forall_cons in Hk as [Hk1 Hk2]; cbn [fmap list_fmap]; [f_equal; auto|].
  rewrite Hk1 in N. destruct (HP _ _ N).
Qed.
Lemma same_keys P c d x : same_entries P c d -> (at_key c x).*1 = (at_key d x).*1.
Proof. intros H. apply (same_at_key P c d x) in H. induction H as [|a b l l' [E _] H IH]; [reflexivity|]. cbn. f_equal; auto. Qed.
Lemma known_under keys c x : x ∈ map lit keys -> under (known keys c) x = under c x.
Proof. intros H. rewrite !under_at_key, at_key_known by exact H. reflexivity. Qed.
Lemma in_known keys c kv : kv ∈ known keys c -> kv ∈ c. Proof. unfold known. intros [_ H]%elem_of_list_filter. exact H. Qed.
Lemma known_in keys c kv : kv ∈ c -> value_of kv.1 ∈ map lit keys -> kv ∈ known keys c. Proof. intros. unfold known. apply elem_of_list_filter. auto. Qed.

Lemma Forall2_sym (R : node -> node -> Prop) xs ys : (forall a b, R a b -> R b a) -> Forall2 R xs ys -> Forall2 R ys xs.
Proof. intros HR. induction 1; constructor; auto. Qed.
Lemma same_plain_sym a b : same_plain a b -> same_plain b a.
Proof.
  intros [->|(l & c & d & -> & -> & Hp & E)]; [left; reflexivity|]. right. exists l, d, c. split; [reflexivity|]. split; [reflexivity|]. split; [|auto].
  intros (kv & Hin & Ek). apply Hp. exists kv. split; [|exact Ek]. apply (in_known item_keys). rewrite E. apply known_in; [exact Hin|].
  rewrite Ek. apply (bool_decide_unpack _). vm_compute. exact I.
Qed.
Lemma same_item_sym a b : same_item a b -> same_item b a.
Proof.
  intros [H|(l & c & d & -> & -> & H)]; [left; apply same_plain_sym, H|]. right. exists l, d, c. split; [reflexivity|]. split; [reflexivity|].
  revert H. apply same_entries_sym. intros k v v' (E & l' & xs & ys & -> & -> & Hxy). split; [exact E|]. exists l', ys, xs. auto using Forall2_sym, same_plain_sym.
Qed.
Lemma same_task_sym a b : same_task a b -> same_task b a.
Proof.
  intros [->|(l & c & d & -> & -> & H)]; [left; reflexivity|]. right. exists l, d, c. split; [reflexivity|]. split; [reflexivity|].
  revert H. apply same_entries_sym. intros k v v' (E & l' & xs & ys & -> & -> & Hxy). split; [exact E|]. exists l', ys, xs. auto using Forall2_sym, same_item_sym.
Qed.
Lemma same_document_sym a b : same_document a b -> same_document b a.
Proof.
  intros (l & c & d & -> & -> & H). exists l, d, c. split; [reflexivity|]. split; [reflexivity|].
  revert H. apply same_entries_sym. intros k v v' (E & l' & xs & ys & -> & -> & Hxy). split; [exact E|]. exists l', ys, xs. split; [reflexivity|]. split; [reflexivity|].
  clear - Hxy. induction Hxy as [|x y r r' [E N] H IH]; constructor; auto using same_task_sym.
Qed.

Ltac key := apply (bool_decide_unpack _); vm_compute; exact I.
(** A key among some known ones is known. *)
Ltac among H := repeat (apply elem_of_cons in H as [->|H]; [key|]); apply elem_of_nil in H; contradiction.

Definition agree (keys : list string) (c d : list (node * node)) : Prop := forall k, lit k ∈ map lit keys -> under c (lit k) = under d (lit k).
Ltac same_field A :=
  rewrite ?under_at_key; unfold text, map_of, bool_of, strs_of, int_of, field, field_at;
  repeat match goal with |- context [under ?c (lit ?k)] => rewrite (A k) by key end.

Section Meaning.
  Context (Y : yaml).

  Lemma known_agree keys c d : known keys c = known keys d -> agree keys c d.
  Proof. intros E k Hk. rewrite <- (known_under keys c), E, known_under by exact Hk. reflexivity. Qed.
  Lemma text_agree keys c d k : agree keys c d -> lit k ∈ map lit keys -> text c k = text d k.
  Proof. intros A Hk. unfold text, field, field_at. rewrite (A k Hk). reflexivity. Qed.
  Lemma map_of_agree keys c d k : agree keys c d -> lit k ∈ map lit keys -> map_of c k = map_of d k.
  Proof. intros A Hk. unfold map_of, field, field_at. rewrite (A k Hk). reflexivity. Qed.
  Lemma bool_of_agree keys c d k : agree keys c d -> lit k ∈ map lit keys -> bool_of Y c k = bool_of Y d k.
  Proof. intros A Hk. unfold bool_of, field, field_at. rewrite (A k Hk). reflexivity. Qed.
  Lemma strs_of_agree keys c d k : agree keys c d -> lit k ∈ map lit keys -> strs_of Y c k = strs_of Y d k.
  Proof. intros A Hk. unfold strs_of, field, field_at. rewrite (A k Hk). reflexivity. Qed.
  Lemma int_of_agree keys c d k : agree keys c d -> lit k ∈ map lit keys -> int_of Y c k = int_of Y d k.
  Proof. intros A Hk. unfold int_of, field, field_at. rewrite (A k Hk). reflexivity. Qed.
  Ltac fields A c :=
    repeat match goal with
    | |- context [text c ?k] => rewrite (text_agree _ _ _ k A) by key
    | |- context [map_of c ?k] => rewrite (map_of_agree _ _ _ k A) by key
    | |- context [bool_of Y c ?k] => rewrite (bool_of_agree _ _ _ k A) by key
    | |- context [strs_of Y c ?k] => rewrite (strs_of_agree _ _ _ k A) by key
    | |- context [int_of Y c ?k] => rewrite (int_of_agree _ _ _ k A) by key
    end.

  Lemma entry_unknown k v : k ∉ map lit item_keys -> entry_ok Y k v.
  Proof. intros Hn. split; intros H; exfalso; apply Hn; first [rewrite H; key|unfold one_of in H; cbn [map] in H; among H]. Qed.
  Lemma task_entry_unknown k v : k ∉ map lit task_keys -> task_entry_ok Y k v.
  Proof. intros Hn. split; intros H; exfalso; apply Hn; first [rewrite H; key|unfold one_of in H; cbn [map] in H; among H]. Qed.
  Lemma section_unknown k v : k ∉ map lit document_keys -> section_ok Y k v.
  Proof. intros Hn. split; intros H; exfalso; apply Hn; first [rewrite H; key|unfold one_of in H; cbn [map] in H; among H]. Qed.

  (** Entry by entry. *)
  Lemma all_known (keys : list string) (P : str -> node -> node -> Prop) (Q : str -> node -> Prop) c d :
    same_entries P (known keys c) (known keys d) -> (forall k v, k ∉ map lit keys -> Q k v) -> (forall k v v', P k v v' -> Q k v -> Q k v') ->
    Forall (fun kv => Q (value_of kv.1) kv.2) c -> Forall (fun kv => Q (value_of kv.1) kv.2) d.
  Proof.
    intros Hs Hu Hp Hc. rewrite Forall_forall in *. intros kv Hin. destruct (decide (value_of kv.1 ∈ map lit keys)) as [Hk|Hk]; [|apply Hu, Hk].
    destruct (same_in P _ _ kv Hs (known_in keys d kv Hin Hk)) as (v & Hv & N). apply in_known, Hc in Hv. cbn in Hv. destruct N as [->|N]; [exact Hv|exact (Hp _ _ _ N Hv)].
  Qed.

  Lemma has_under c k : has c k <-> under c (lit k) <> [].
  Proof.
    rewrite under_at_key. split.
    - intros (kv & Hin & E) H. apply fmap_nil_inv in H. assert (Hk : kv ∈ at_key c (lit k)) by (unfold at_key; apply elem_of_list_filter; auto). rewrite H in Hk. apply elem_of_nil in Hk. exact Hk.
    - intros H. destruct (at_key c (lit k)) as [|kv r] eqn:E; [contradiction|]. assert (Hk : kv ∈ at_key c (lit k)) by (rewrite E; left).
      unfold at_key in Hk. apply elem_of_list_filter in Hk as [Hk1 Hk2]. exists kv. auto.
  Qed.

  Lemma kind_same c d k : known item_keys c = known item_keys d -> the_kind Y c k -> the_kind Y d k.
  Proof.
    intros E (A & B & C). pose proof (known_agree _ _ _ E) as Ag. split; [rewrite has_under, <- (Ag "parallel"%string) by key; rewrite <- has_under; exact A|]. split.
    - apply (all_known item_keys (fun _ _ _ => False) (entry_ok Y) c d); [rewrite E; apply same_entries_refl|exact entry_unknown|contradiction|exact B].
    - intros k' Hk'. rewrite <- (text_agree _ _ _ k' Ag); [apply C, Hk'|]. cbn in Hk'. repeat (destruct Hk' as [<-|Hk']; [key|]). contradiction.
  Qed.
  Lemma plain_same n n' it : same_plain n n' -> becomes Y n it -> becomes Y n' it.
  Proof.
    intros [->|(l & c & d & -> & -> & Hp & E)] B; [exact B|]. pose proof (known_agree _ _ _ E) as Ag.
    inversion B as [? ? K|? ? K|? ? K L|? ? p K Ep P|? ? l' its items K F]; subst.
    - fields Ag c. apply B_cmd, (kind_same c d _ E K).
    - fields Ag c. apply B_task, (kind_same c d _ E K).
    - fields Ag c. apply B_log; [exact (kind_same c d _ E K)|]. rewrite <- (text_agree _ _ _ "level"%string Ag) by key. exact L.
    - eapply B_prompt; [exact (kind_same c d _ E K)| |exact P]. fields Ag c. reflexivity.
    - exfalso. apply Hp, has_under. unfold field, field_at in F. intros Hu. rewrite Hu in F. discriminate F.
  Qed.
  Lemma label_same n n' : same_plain n n' -> label n = label n'.
  Proof.
    intros [->|(l & c & d & -> & -> & Hp & E)]; [reflexivity|]. cbn [label]. rewrite (known_agree _ _ _ E "label"%string) by key. reflexivity.
  Qed.

  Lemma last_same (P : str -> node -> node -> Prop) c d x v : same_entries P (at_key c x) (at_key d x) -> field_at c x = Some v ->
    exists v', field_at d x = Some v' /\ (v = v' \/ P x v v').
  Proof.
    unfold field_at. rewrite !under_at_key. intros H.
    assert (Hk : Forall (fun a => value_of a.1 = x) (at_key c x)) by (unfold at_key; apply Forall_forall; intros a Ha; apply elem_of_list_filter in Ha; apply Ha).
    destruct (at_key c x) as [|a0 l0 _] eqn:Ec using rev_ind; [discriminate|]. clear Ec.
    apply Forall2_app_inv_l in H as (l1 & l2 & H1 & H2 & ->). apply Forall2_cons_inv_l in H2 as (b & r & [E N] & Hr & ->). apply Forall2_nil_inv_l in Hr as ->.
    rewrite !fmap_app. change ([a0].*2) with [a0.2]. change ([b].*2) with [b.2]. rewrite !last_snoc. intros [= <-]. exists b.2. split; [reflexivity|]. apply Forall_app in Hk as [_ Hk]. apply Forall_cons in Hk as [Hk _]. rewrite <- Hk. exact N.
  Qed.

  Lemma item_same n n' it : same_item n n' -> becomes Y n it -> becomes Y n' it.
  Proof.
    intros [H|(l & c & d & -> & -> & Hs)] B; [exact (plain_same n n' it H B)|].
    set (P := fun (k : str) (v v' : node) => k = lit "parallel" /\ exists l' xs ys, v = YSeq l' xs /\ v' = YSeq l' ys /\ Forall2 same_plain xs ys) in *.
    assert (Ag : forall keys, lit "parallel" ∉ map lit keys -> agree keys c d).
    { intros keys Hn k Hk. apply (same_under P c d (lit k) Hs). intros v v' [E _]. apply Hn. rewrite <- E. exact Hk. }
    assert (Hpar : has c "parallel" -> exists l' c', it = RPar l' c').
    { intros Hp. inversion B as [? ? K|? ? K|? ? K L|? ? p K Ep Pr|? ? l' its items K F]; subst; eauto; destruct K as [K _]; contradiction. }
    destruct (decide (under c (lit "parallel") = [])) as [Hu|Hu].
    - (* no block after all *)
      assert (E : c = d).
      { clear - Hs Hu. assert (Hn : Forall (fun a => value_of a.1 <> lit "parallel") c).
        { apply Forall_forall. intros a Ha E. assert (Hk : a ∈ at_key c (lit "parallel")) by (unfold at_key; apply elem_of_list_filter; auto).
          rewrite under_at_key in Hu. apply fmap_nil_inv in Hu. rewrite Hu in Hk. apply elem_of_nil in Hk. exact Hk. }
        clear Hu. induction Hs as [|[k v] [k' v'] c d [E [N|[N _]]] H IH]; [reflexivity|..]; apply Forall_cons in Hn as [Hn1 Hn2]; cbn in *; [|contradiction].
        subst. f_equal. auto. }
      rewrite <- E. exact B.
    - apply has_under, Hpar in Hu as (o & items' & ->). inversion B as [| | | |? ? l' its items K F Hn Hi Hsim]; subst.
      destruct (last_same P c d (lit "parallel") _ (same_at_key P c d _ Hs) F) as (v' & F' & N).
      assert (Hx : exists its', v' = YSeq l' its' /\ Forall2 same_plain its its').
      { destruct N as [<-|(_ & l0 & xs & ys & [= <- <-] & -> & Hxy)]; [|eauto]. exists its. split; [reflexivity|]. clear. induction its; constructor; [left; reflexivity|assumption]. }
      destruct Hx as (its' & -> & Hxy).
      assert (El : map label its = map label its') by (clear - Hxy; induction Hxy; cbn; f_equal; auto using label_same). rewrite El.
      specialize (Ag ["mode"; "limit"; "color"; "silent"; "output"; "platforms"; "when"]%string ltac:(key)). fields Ag c.
      apply (B_par Y l d l' its' items').
      + rewrite Forall_forall in *. intros kv Hin. destruct (same_in P c d kv Hs Hin) as (v & Hv & [->|(Ek & l0 & xs & ys & -> & Ey & _)]); [exact (K _ Hv)|].
        specialize (K _ Hv). cbn in K. destruct K as [K1 _ _ _ _ _]. split; [exact K1|..]; rewrite Ek; intros Hq; [eauto|discriminate Hq..| |discriminate Hq].
        exfalso. unfold one_of in Hq. cbn [map] in Hq. repeat (apply elem_of_cons in Hq as [Hq|Hq]; [discriminate Hq|]). apply elem_of_nil in Hq. exact Hq.
      + exact F'.
      + intros ->. apply Forall2_nil_inv_r in Hxy. auto.
      + clear - Hxy Hi. revert items' Hi. induction Hxy; intros items' Hi; inversion Hi; subst; constructor; [eapply plain_same; eassumption|auto].
      + exact Hsim.
  Qed.
  Lemma items_same xs ys its : Forall2 same_item xs ys -> Forall2 (becomes Y) xs its -> Forall2 (becomes Y) ys its.
  Proof. intros H. revert its. induction H; intros its Hi; inversion Hi; subst; constructor; [eapply item_same; eassumption|auto]. Qed.

  Lemma task_same k v v' t : same_task v v' -> task_means Y k v t -> task_means Y k v' t.
  Proof.
    intros [->|(l & c & d & -> & -> & Hs)] M; [exact M|]. destruct M as (l0 & c0 & [= <- <-] & F & E & R).
    set (P := fun (k : str) (v v' : node) => k = lit "run" /\ exists l' xs ys, v = YSeq l' xs /\ v' = YSeq l' ys /\ Forall2 same_item xs ys) in *.
    assert (Ag : agree ["desc"; "alias"; "aliases"; "vars"; "env"; "silent"; "output"; "dir"; "when"; "deps"]%string c d).
    { intros x Hx. assert (Hx' : lit x ∈ map lit task_keys).
      { revert Hx. cbn [map]. generalize (lit x) as y. intros y Hy. among Hy. }
      rewrite <- (known_under task_keys c), <- (known_under task_keys d) by exact Hx'. apply (same_under P _ _ _ Hs). intros v v' [Ex _].
      rewrite Ex in Hx. revert Hx. apply (bool_decide_unpack _). vm_compute. exact I. }
    exists l, d. split; [reflexivity|]. split.
    - apply (all_known task_keys P (task_entry_ok Y) c d Hs task_entry_unknown); [|exact F].
      intros x v v' (-> & l' & xs & ys & -> & -> & Hxy) [T1 T2 T3 T4 T5]. split; intros Hq.
      1-3: exfalso; unfold one_of in Hq; cbn [map] in Hq; repeat (apply elem_of_cons in Hq as [Hq|Hq]; [discriminate Hq|]); apply elem_of_nil in Hq; exact Hq.
      + discriminate Hq.
      + destruct (T5 eq_refl) as (l1 & its & [= <- <-] & Hf). exists l', ys. split; [reflexivity|]. clear - Hxy Hf.
        induction Hxy; [constructor|]. apply Forall_cons in Hf as [[it Hf1] Hf2]. constructor; [exists it; eapply item_same; eassumption|auto].
    - assert (Ek : key_at c "deps" = key_at d "deps").
      { unfold key_at. change (filter _ c) with (at_key c (lit "deps")). change (filter _ d) with (at_key d (lit "deps")).
        rewrite <- (at_key_known task_keys c), <- (at_key_known task_keys d) by key. rewrite (same_keys P _ _ _ Hs). reflexivity. }
      split; [rewrite E at 1; rewrite Ek; fields Ag c; reflexivity|].
      pose proof (same_at_key P _ _ (lit "run") Hs) as Hr. rewrite !at_key_known in Hr by key.
      unfold field in *. destruct (field_at c (lit "run")) as [n|] eqn:Ec.
      + destruct (last_same P c d _ _ Hr Ec) as (v' & -> & N). destruct R as (l' & its & -> & Hi).
        destruct N as [<-|(_ & l0 & xs & ys & [= <- <-] & -> & Hxy)]; [eauto|]. exists l', ys. split; [reflexivity|exact (items_same _ _ _ Hxy Hi)].
      + assert (Hn : field_at d (lit "run") = None); [|rewrite Hn; exact R]. unfold field_at in *. rewrite under_at_key in *. apply last_None, fmap_nil_inv in Ec.
        rewrite Ec in Hr. apply Forall2_nil_inv_l in Hr. rewrite Hr. reflexivity.
  Qed.

  Lemma entries_same (P : str -> node -> node -> Prop) c d k : same_entries P c d -> (forall v v', P (lit k) v v' -> exists l es es', v = YMap l es /\ v' = YMap l es' /\ Forall2 (fun a b => a.1 = b.1 /\ same_task a.2 b.2) es es') ->
    Forall2 (fun a b => a.1 = b.1 /\ same_task a.2 b.2) (entries c k) (entries d k).
  Proof.
    intros H HP. unfold entries. rewrite !under_at_key. apply (same_at_key P c d (lit k)) in H.
    assert (Hk : Forall (fun a => value_of a.1 = lit k) (at_key c (lit k))) by (unfold at_key; apply Forall_forall; intros a Ha; apply elem_of_list_filter in Ha; apply Ha).
    induction H as [|a b r r' [E N] H IH]; [constructor|]. apply Forall_cons in Hk as [Hk1 Hk2]. cbn [fmap list_fmap map concat]. apply Forall2_app; [|auto].
    destruct N as [->|N].
    - destruct b.2; try constructor. clear. induction content; constructor; [split; [reflexivity|left; reflexivity]|assumption].
    - rewrite Hk1 in N. destruct (HP _ _ N) as (l & es & es' & -> & -> & Hes). exact Hes.
  Qed.

  Lemma document_same n n' s : same_document n n' -> means Y n s -> means Y n' s.
  Proof.
    intros (l & c & d & -> & -> & Hs) (l0 & c0 & [= <- <-] & F & V & En & Si & Ou & Di & In & Ta).
    set (P := fun (k : str) (v v' : node) => k = lit "tasks" /\ exists l' es es', v = YMap l' es /\ v' = YMap l' es' /\ Forall2 (fun a b => a.1 = b.1 /\ same_task a.2 b.2) es es') in *.
    assert (Ag : agree ["vars"; "env"; "silent"; "output"; "dir"; "includes"]%string c d).
    { intros x Hx. assert (Hx' : lit x ∈ map lit document_keys).
      { revert Hx. cbn [map]. generalize (lit x) as y. intros y Hy. among Hy. }
      rewrite <- (known_under document_keys c), <- (known_under document_keys d) by exact Hx'. apply (same_under P _ _ _ Hs). intros v v' [Ex _].
      rewrite Ex in Hx. revert Hx. apply (bool_decide_unpack _). vm_compute. exact I. }
    exists l, d. split; [reflexivity|]. split.
    - apply (all_known document_keys P (section_ok Y) c d Hs section_unknown); [|exact F].
      intros x v v' (-> & l' & es & es' & -> & -> & Hes) [T1 T2 T3 T4 T5]. split; intros Hq.
      1-2: exfalso; unfold one_of in Hq; cbn [map] in Hq; repeat (apply elem_of_cons in Hq as [Hq|Hq]; [discriminate Hq|]); apply elem_of_nil in Hq; exact Hq.
      + discriminate Hq.
      + destruct (T4 eq_refl) as (l1 & es1 & [= <- <-] & Hnd & Hf). exists l', es'. split; [reflexivity|]. split.
        * replace (map (fun kv : node * node => value_of kv.1) es') with (map (fun kv : node * node => value_of kv.1) es); [exact Hnd|].
          clear - Hes. induction Hes as [|a b r r' [E _] H IH]; [reflexivity|]. cbn. rewrite E. f_equal. exact IH.
        * clear - Hes Hf. induction Hes as [|a b r r' [E N] H IH]; [constructor|]. apply Forall_cons in Hf as [[t Hf1] Hf2].
          constructor; [exists t; rewrite <- E; exact (task_same _ _ _ _ N Hf1)|auto].
      + discriminate Hq.
    - rewrite <- !(map_of_agree _ c d _ Ag), <- !(bool_of_agree _ c d _ Ag), <- !(text_agree _ c d _ Ag) by key. do 5 (split; [assumption|]). split.
      + intros x. rewrite In. unfold entries. rewrite (Ag "includes"%string) by key. reflexivity.
      + assert (He : Forall2 (fun a b => a.1 = b.1 /\ same_task a.2 b.2) (entries c "tasks") (entries d "tasks")).
        { assert (G : forall z, entries (known document_keys z) "tasks" = entries z "tasks") by (intros z; unfold entries; rewrite known_under by key; reflexivity).
          rewrite <- (G c), <- (G d). apply (entries_same P _ _ _ Hs). intros v v' [_ H]. exact H. }
        intros x t. rewrite Ta.
        assert (Hx : Forall2 (fun a b => a.1 = b.1 /\ same_task a.2 b.2) (filter (fun kv => value_of kv.1 = x) (entries c "tasks")) (filter (fun kv => value_of kv.1 = x) (entries d "tasks"))).
        { clear - He. induction He as [|a b r r' [E N] H IH]; [constructor|]. rewrite !filter_cons, <- E. destruct (decide (value_of a.1 = x)); [constructor; auto|exact IH]. }
        destruct (filter _ (entries c "tasks")) as [|a0 r0 _] eqn:Ec using rev_ind.
        * apply Forall2_nil_inv_l in Hx. rewrite Hx. reflexivity.
        * clear Ec. apply Forall2_app_inv_l in Hx as (l1 & l2 & H1 & H2 & ->). apply Forall2_cons_inv_l in H2 as ([k' v'] & r & [E N] & Hr & ->). apply Forall2_nil_inv_l in Hr as ->.
          destruct a0 as [k0 v0]. cbn in E, N. subst k'. rewrite !last_snoc. split; intros (k1 & v1 & [= <- <-] & Ht); (eexists _, _; split; [reflexivity|]).
          -- exact (task_same _ _ _ _ N Ht).
          -- exact (task_same _ _ _ _ (same_task_sym _ _ N) Ht).
  Qed.
End Meaning.
