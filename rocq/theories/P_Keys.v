(** C100: the order in which the keys of a mapping are written does not matter. *)
From Verif Require Import Base Types_Model Cond_Model Include_Model Include_Spec Valid_Model Include_Proof P_Include
  Doc_Model Doc_Spec Doc_Proof Doc_Item Doc_Tree Doc_File Doc_Example P_Doc Keys_Spec Keys_Proof.

(** Two trees that differ only in the order of keys, at any depth, are accepted
    together, and as the same Babfile. *)
Theorem C100_same_babfile Y n n' : order_blind Y -> reordered n n' ->
  forall s, unmarshal_node Y n = Ok s <-> unmarshal_node Y n' = Ok s.
Proof.
  intros OB H s. rewrite !unmarshal_node_spec. split; apply means_near; try exact OB; [left|right]; exact H.
Qed.
Print Assumptions C100_same_babfile.

(** So whole projects: when the files are the same up to the order of keys, loading
    gives the same, the same tasks or the same error. *)
Theorem C100_same_project Y files files' orc grow vorc cwd path : order_blind Y ->
  (forall f, match files !! f, files' !! f with
             | None, None => True
             | Some d, Some d' => reordered_doc (y_parse Y d) (y_parse Y d')
             | _, _ => False
             end) ->
  parse (decoded Y files) orc grow vorc cwd path = parse (decoded Y files') orc grow vorc cwd path.
Proof.
  intros OB H. f_equal. apply map_eq. intros f. specialize (H f). unfold decoded. rewrite !lookup_fmap.
  destruct (files !! f) as [d|], (files' !! f) as [d'|]; try contradiction; [|reflexivity]. cbn. f_equal. unfold unmarshal.
  destruct (y_parse Y d) as [| |n], (y_parse Y d') as [| |n']; cbn in H; try contradiction; try reflexivity.
  pose proof (C100_same_babfile Y n n' OB H) as E.
  destruct (unmarshal_node Y n) as [s|], (unmarshal_node Y n') as [s'|]; try reflexivity.
  - pose proof (proj1 (E s) eq_refl) as E1. injection E1 as ->. reflexivity.
  - discriminate (proj1 (E s) eq_refl).
  - discriminate (proj2 (E s') eq_refl).
Qed.
Print Assumptions C100_same_project.

(** A repeated key is different: the last one counts, so there the order matters. *)
Theorem C100_repeated_key_refuted : exists l c c' s s', c ≡ₚ c' /\
  unmarshal_node Y0 (YMap l c) = Ok s /\ unmarshal_node Y0 (YMap l c') = Ok s' /\ f_dir s <> f_dir s'.
Proof.
  exists 1, [kv 1 "dir" (sc 1 "a"); kv 2 "dir" (sc 2 "b")], [kv 2 "dir" (sc 2 "b"); kv 1 "dir" (sc 1 "a")].
  do 2 eexists. split; [apply Permutation_swap|]. split; [vm_compute; reflexivity|]. split; [vm_compute; reflexivity|]. vm_compute. discriminate.
Qed.

(** ** The hypotheses can be met *)

Lemma target_reordered n n' : reordered n n' -> reordered (target n) (target n').
Proof. induction 1; cbn; [constructor|constructor; assumption|econstructor; eassumption|assumption]. Qed.
Lemma plain_reordered n n' : reordered n n' -> plain n = plain n'.
Proof. intros H%target_reordered. unfold plain. destruct H; reflexivity. Qed.
Lemma plain_near n n' : near n n' -> plain n = plain n'.
Proof. intros [H|H]; [|symmetry]; apply plain_reordered, H. Qed.
(** The small stand-in for the library does not look at the order. *)
Lemma toy_blind doc : order_blind (toy doc).
Proof.
  split; intros n n' H; cbn.
  - apply target_reordered in H. destruct H as [m|l xs ys H|l c d e|]; try reflexivity.
    induction H as [|x y xs ys Hx H IH]; [reflexivity|]. cbn. rewrite (plain_reordered _ _ Hx), IH. reflexivity.
  - rewrite (plain_reordered _ _ H). reflexivity.
  - rewrite (plain_reordered _ _ H). reflexivity.
  - apply target_reordered in H. destruct H as [m|l xs ys H|l c d e Hn Hf Hp|]; try reflexivity.
    apply (bind_alike plain c e (lit "babfile")); [exact plain_near|exact (map_alike c d e Hn Hf Hp)].
Qed.

Definition one_way : node := mp 1
  [ kv 1 "dir" (sc 1 "src")
  ; kv 2 "tasks" (mp 3
      [ kv 3 "build" (mp 4 [ kv 4 "desc" (sc 4 "d"); kv 5 "run" (seq 5 [mp 6 [kv 6 "cmd" (sc 6 "make"); kv 7 "silent" (sc 7 "true")]]) ])
      ; kv 8 "test" (mp 9 [ kv 9 "deps" (seq 9 [sc 9 "build"]) ]) ]) ].
Definition other_way : node := mp 1
  [ kv 2 "tasks" (mp 3
      [ kv 8 "test" (mp 9 [ kv 9 "deps" (seq 9 [sc 9 "build"]) ])
      ; kv 3 "build" (mp 4 [ kv 5 "run" (seq 5 [mp 6 [kv 7 "silent" (sc 7 "true"); kv 6 "cmd" (sc 6 "make")]]); kv 4 "desc" (sc 4 "d") ]) ])
  ; kv 1 "dir" (sc 1 "src") ].
Lemma swapped l a b a' b' : value_of a.1 <> value_of b.1 -> a.1 = a'.1 -> reordered a.2 a'.2 -> b.1 = b'.1 -> reordered b.2 b'.2 ->
  reordered (YMap l [a; b]) (YMap l [b'; a']).
Proof.
  intros Hn Ha Hra Hb Hrb. apply (ro_map l [a; b] [a'; b'] [b'; a']); [|repeat constructor; assumption|apply Permutation_swap].
  cbn. apply NoDup_cons. split; [rewrite elem_of_list_singleton; exact Hn|]. apply NoDup_cons. split; [apply not_elem_of_nil|constructor].
Qed.
Example C100_met : exists s t, reordered one_way other_way /\
  unmarshal_node Y0 one_way = Ok s /\ unmarshal_node Y0 other_way = Ok s /\
  f_tasks s !! lit "build" = Some t /\ length (t_run t) = 1 /\ f_dir s = lit "src".
Proof.
  assert (R : reordered one_way other_way).
  { unfold one_way, other_way. apply swapped; [vm_compute; discriminate|reflexivity|constructor|reflexivity|].
    apply swapped; [vm_compute; discriminate|reflexivity| |reflexivity|constructor].
    apply swapped; [vm_compute; discriminate|reflexivity|constructor|reflexivity|].
    constructor. constructor; [|constructor]. apply swapped; [vm_compute; discriminate|reflexivity|constructor|reflexivity|constructor]. }
  destruct (unmarshal_node Y0 one_way) as [s|] eqn:E; [|vm_compute in E; discriminate E].
  pose proof (proj1 (C100_same_babfile Y0 one_way other_way (toy_blind _) R s) E) as E'.
  assert (G : match unmarshal_node Y0 one_way with Ok s => match f_tasks s !! lit "build" with Some t => Nat.eqb (length (t_run t)) 1 | None => false end && bool_decide (f_dir s = lit "src") | Err _ => false end = true)
    by (vm_compute; reflexivity).
  rewrite E in G. destruct (f_tasks s !! lit "build") as [t|] eqn:Et; [|discriminate G].
  apply andb_prop in G as [G1 G2]. apply Nat.eqb_eq in G1. apply bool_decide_eq_true in G2.
  exists s, t. auto 10.
Qed.
