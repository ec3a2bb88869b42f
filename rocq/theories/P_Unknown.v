(** C101: keys that bab does not know. *)
From Verif Require Import Base Types_Model Include_Model Doc_Model Doc_Spec Doc_Proof Doc_Item Doc_Tree Doc_File Doc_Example Unknown_Spec Unknown_Proof.

(** Unknown keys of the document, of tasks and of run items, inside and outside of
    parallel blocks, can be added, changed, moved and removed: nothing else changes. *)
Theorem C101_ignored Y n n' : same_document n n' -> forall s, unmarshal_node Y n = Ok s <-> unmarshal_node Y n' = Ok s.
Proof.
  intros H s. rewrite !unmarshal_node_spec. split; apply document_same; [exact H|apply same_document_sym, H].
Qed.
Print Assumptions C101_ignored.

(** But a parallel block with a key that is not one of its own makes the whole file
    invalid. *)
Theorem C101_block_strict Y l c k1 l1 es k2 l2 tc k3 l3 its l4 ic k v :
  (k1, YMap l1 es) ∈ c -> value_of k1 = lit "tasks" -> (k2, YMap l2 tc) ∈ es -> (k3, YSeq l3 its) ∈ tc -> value_of k3 = lit "run" ->
  YMap l4 ic ∈ its -> has ic "parallel" -> (k, v) ∈ ic -> value_of k ∉ map lit block_keys ->
  forall s, unmarshal_node Y (YMap l c) <> Ok s.
Proof.
  intros H1 E1 H2 H3 E3 H4 Hp Hk Hn s H. apply unmarshal_node_spec in H as (l0 & c0 & [= <- <-] & F & _).
  rewrite Forall_forall in F. destruct (so_tasks Y _ _ (F _ H1) E1) as (l' & es' & [= <- <-] & _ & Ft).
  rewrite Forall_forall in Ft. destruct (Ft _ H2) as (t & l'' & tc' & [= <- <-] & Fe & _).
  rewrite Forall_forall in Fe. destruct (to_run Y _ _ (Fe _ H3) E3) as (l''' & its' & [= <- <-] & Fi).
  rewrite Forall_forall in Fi. destruct (Fi _ H4) as [it B].
  inversion B as [? ? K|? ? K|? ? K L|? ? p K Ep Pr|? ? lp ips items K Fp]; subst; try (destruct K as [K _]; contradiction).
  rewrite Forall_forall in K. apply Hn. exact (bo_key Y _ _ (K _ Hk)).
Qed.
Print Assumptions C101_block_strict.

(** ** Concrete cases *)

(** One document with notes under keys of the author's own, and without them. *)
Definition note (b : bool) (l : nat) (k : string) : list (node * node) := if b then [kv l k (sc l "mine")] else [].
Definition inner (b : bool) : list (node * node) := note b 9 "owner" ++ [kv 10 "cmd" (sc 10 "a")].
Definition first (b : bool) : list (node * node) := kv 6 "cmd" (sc 6 "make") :: note b 7 "silnet".
Definition block (b : bool) : list (node * node) :=
  [kv 8 "parallel" (seq 9 [mp 9 (inner b); mp 11 [kv 11 "cmd" (sc 11 "b")]]); kv 12 "limit" (sc 12 "1")].
Definition build (b : bool) : list (node * node) := note b 4 "owner" ++ [kv 5 "run" (seq 6 [mp 6 (first b); mp 8 (block b)])].
Definition noted (b : bool) : list (node * node) := note b 1 "x-note" ++ [kv 2 "tasks" (mp 3 [kv 3 "build" (mp 4 (build b))])].
Lemma noted_same : same_document (mp 1 (noted true)) (mp 1 (noted false)).
Proof.
  assert (NP : forall c, bool_decide (under c (lit "parallel") = []) = true -> ~ has c "parallel") by (intros c H; apply bool_decide_eq_true in H; rewrite has_under; tauto).
  exists 1, (noted true), (noted false). split; [reflexivity|]. split; [reflexivity|].
  change (known document_keys (noted true)) with [kv 2 "tasks" (mp 3 [kv 3 "build" (mp 4 (build true))])].
  change (known document_keys (noted false)) with [kv 2 "tasks" (mp 3 [kv 3 "build" (mp 4 (build false))])].
  constructor; [|constructor]. split; [reflexivity|]. right. split; [reflexivity|]. eexists 3, _, _. split; [reflexivity|]. split; [reflexivity|].
  constructor; [|constructor]. split; [reflexivity|]. right. exists 4, (build true), (build false). split; [reflexivity|]. split; [reflexivity|].
  change (known task_keys (build true)) with [kv 5 "run" (seq 6 [mp 6 (first true); mp 8 (block true)])].
  change (known task_keys (build false)) with [kv 5 "run" (seq 6 [mp 6 (first false); mp 8 (block false)])].
  constructor; [|constructor]. split; [reflexivity|]. right. split; [reflexivity|]. eexists 6, _, _. split; [reflexivity|]. split; [reflexivity|].
  constructor; [|constructor; [|constructor]].
  - left. right. exists 6, (first true), (first false). split; [reflexivity|]. split; [reflexivity|]. split; [apply NP; vm_compute; reflexivity|]. vm_compute. reflexivity.
  - right. exists 8, (block true), (block false). split; [reflexivity|]. split; [reflexivity|]. constructor; [|constructor; [split; [reflexivity|left; reflexivity]|constructor]].
    split; [reflexivity|]. right. split; [reflexivity|]. eexists 9, _, _. split; [reflexivity|]. split; [reflexivity|]. constructor; [|constructor; [left; reflexivity|constructor]].
    right. exists 9, (inner true), (inner false). split; [reflexivity|]. split; [reflexivity|]. split; [apply NP; vm_compute; reflexivity|]. vm_compute. reflexivity.
Qed.
Example C101_met : exists s t, unmarshal_node Y0 (mp 1 (noted true)) = Ok s /\ unmarshal_node Y0 (mp 1 (noted false)) = Ok s /\
  f_tasks s !! lit "build" = Some t /\ length (t_run t) = 2.
Proof.
  destruct (unmarshal_node Y0 (mp 1 (noted true))) as [s|] eqn:E; [|vm_compute in E; discriminate E].
  assert (G : match unmarshal_node Y0 (mp 1 (noted true)) with Ok s => match f_tasks s !! lit "build" with Some t => Nat.eqb (length (t_run t)) 2 | None => false end | Err _ => false end = true)
    by (vm_compute; reflexivity).
  pose proof (proj1 (C101_ignored Y0 _ _ noted_same s) E) as E'.
  rewrite E in G. destruct (f_tasks s !! lit "build") as [t|] eqn:Et; [|discriminate G]. apply Nat.eqb_eq in G. exists s, t. auto.
Qed.

(** So a mistyped setting is accepted and has no effect: the command that was to be
    silent is not. *)
Theorem C101_mistyped_reported_refuted : exists s t it, unmarshal_node Y0 (mp 1 (noted true)) = Ok s /\ f_tasks s !! lit "build" = Some t /\
  t_run t !! 0 = Some (RCmd it) /\ c_silent it = None.
Proof.
  destruct C101_met as (s & t & E & _ & Et & _).
  assert (G : match unmarshal_node Y0 (mp 1 (noted true)) with Ok s => match f_tasks s !! lit "build" with Some t => match t_run t with RCmd it :: _ => match c_silent it with None => true | _ => false end | _ => false end | None => false end | Err _ => false end = true)
    by (vm_compute; reflexivity).
  rewrite E, Et in G. destruct (t_run t) as [|[it| | | |] r] eqn:Er; try discriminate G. destruct (c_silent it) eqn:Es; [discriminate G|].
  exists s, t, it. rewrite Er. auto.
Qed.
Print Assumptions C101_mistyped_reported_refuted.

(** The same key in a block. *)
Example C101_block_met : exists c ic k v, has ic "parallel" /\ (k, v) ∈ ic /\ value_of k ∉ map lit block_keys /\
  (exists k1 k2 k3 l1 l2 l3 l4 es tc its, (k1, YMap l1 es) ∈ c /\ value_of k1 = lit "tasks" /\ (k2, YMap l2 tc) ∈ es /\ (k3, YSeq l3 its) ∈ tc /\ value_of k3 = lit "run" /\ YMap l4 ic ∈ its) /\
  forall s, unmarshal_node Y0 (mp 1 c) <> Ok s.
Proof.
  set (ic := kv 4 "silnet" (sc 4 "true") :: block false). exists [kv 2 "tasks" (mp 3 [kv 3 "build" (mp 4 [kv 4 "run" (seq 4 [mp 4 ic])])])], ic, (sc 4 "silnet"), (sc 4 "true").
  assert (A : has ic "parallel") by (eexists; split; [right; left|reflexivity]).
  assert (B : (sc 4 "silnet", sc 4 "true") ∈ ic) by left.
  assert (C : value_of (sc 4 "silnet") ∉ map lit block_keys) by key.
  split; [exact A|]. split; [exact B|]. split; [exact C|].
  split; [do 10 eexists; repeat split; try apply elem_of_list_here; reflexivity|].
  eapply C101_block_strict; [apply elem_of_list_here|reflexivity|apply elem_of_list_here|apply elem_of_list_here|reflexivity|apply elem_of_list_here|exact A|exact B|exact C].
Qed.
