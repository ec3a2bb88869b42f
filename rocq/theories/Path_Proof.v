(** What cleaned and joined absolute paths mean: where one ends up when walking
    through the elements of a path. *)
From Verif Require Import Base Path_Model.


(** ** Walking. A place is the list of names from the innermost to the root. *)
Definition walk_step (cur : list str) (w : str) : list str :=
  if decide (w = [] \/ w = lit ".") then cur
  else if decide (w = lit "..") then tail cur
  else w :: cur.
Definition walk (cur : list str) (p : str) : list str := fold_left walk_step (split_on slash p) cur.
(** The one way to write a place. *)
Definition spelled (place : list str) : str := slash :: join_with [slash] (rev place).
(** The place an absolute path leads to; where [p] leads to from [base]. *)
Definition place_of (p : str) : list str := walk [] p.
Definition place_from (base p : str) : list str := if is_abs p then place_of p else walk (place_of base) p.

Definition proper (w : str) : Prop := w <> [] /\ w <> lit "." /\ w <> lit ".." /\ slash ∉ w.

Lemma split_app a b : split_on slash (a ++ slash :: b) = split_on slash a ++ split_on slash b.
Proof.
  induction a as [|c a IH]; [reflexivity|]. cbn [split_on app].
  rewrite IH. destruct (decide (c = slash)); [reflexivity|]. destruct (split_on slash a) as [|w ws] eqn:E; [|reflexivity].
  destruct a as [|c' a']; simpl in E; [discriminate|]. destruct (decide _); [discriminate|]. destruct (split_on slash a'); discriminate.
Qed.
Lemma split_plain w : slash ∉ w -> split_on slash w = [w].
Proof.
  induction w as [|c w IH]; cbn [split_on]; intros H; [reflexivity|]. apply not_elem_of_cons in H as [H1 H2]. rewrite decide_False by (intros ->; apply H1; reflexivity).
  rewrite IH by exact H2. reflexivity.
Qed.
Lemma split_no_slash s w : w ∈ split_on slash s -> slash ∉ w.
Proof.
  revert w. induction s as [|c s IH]; simpl; intros w.
  - intros H. apply elem_of_list_singleton in H as ->. apply not_elem_of_nil.
  - destruct (decide (c = slash)) as [->|Hc].
    + intros H. apply elem_of_cons in H as [->|H]; [apply not_elem_of_nil|auto].
    + destruct (split_on slash s) as [|w0 ws] eqn:E.
      * intros H. apply elem_of_list_singleton in H as ->. apply not_elem_of_cons. split; [congruence|apply not_elem_of_nil].
      * intros H. apply elem_of_cons in H as [->|H]; [|apply IH; right; exact H]. apply not_elem_of_cons. split; [congruence|]. apply IH. left.
Qed.
Lemma split_join l : Forall (fun w => slash ∉ w) l -> l <> [] -> split_on slash (join_with [slash] l) = l.
Proof.
  induction l as [|w l IH]; [congruence|]. intros H _. apply Forall_cons in H as [H1 H2]. destruct l as [|w' l]; [apply split_plain; exact H1|].
  change (join_with [slash] (w :: w' :: l)) with (w ++ slash :: join_with [slash] (w' :: l)). rewrite split_app, IH by (auto; discriminate).
  rewrite split_plain by exact H1. reflexivity.
Qed.

Lemma walk_app cur a b : walk cur (a ++ slash :: b) = walk (walk cur a) b.
Proof. unfold walk. rewrite split_app, fold_left_app. reflexivity. Qed.
Lemma walk_nil cur : walk cur [] = cur.
Proof. reflexivity. Qed.

Lemma steps_proper cur l : Forall proper cur -> Forall (fun w => slash ∉ w) l -> Forall proper (fold_left walk_step l cur).
Proof.
  revert cur. induction l as [|w l IH]; intros cur Hc Hl; [exact Hc|]. apply Forall_cons in Hl as [Hw Hl]. simpl. apply IH; [|exact Hl].
  unfold walk_step. destruct (decide (w = [] \/ w = lit ".")) as [|H1]; [exact Hc|]. destruct (decide (w = lit "..")) as [|H2].
  - destruct cur; [exact Hc|]. apply Forall_cons in Hc as [_ Hc]. exact Hc.
  - constructor; [|exact Hc]. split; [tauto|]. split; [tauto|]. auto.
Qed.
Lemma walk_proper cur p : Forall proper cur -> Forall proper (walk cur p).
Proof. intros H. apply steps_proper; [exact H|]. apply Forall_forall. intros w. apply split_no_slash. Qed.
Lemma place_proper p : Forall proper (place_of p).
Proof. apply walk_proper. constructor. Qed.
Lemma place_from_proper b p : Forall proper (place_from b p).
Proof. unfold place_from. destruct (is_abs p); [apply place_proper|apply walk_proper, place_proper]. Qed.

(** ** Clean *)
Lemma clean_steps l cur : Forall proper cur -> fold_left (clean_step true) l cur = fold_left walk_step l cur \/ exists w, w ∈ l /\ slash ∈ w.
Proof.
  revert cur. induction l as [|w l IH]; intros cur Hc; [left; reflexivity|]. simpl.
  destruct (decide (slash ∈ w)) as [H|Hw]; [right; exists w; split; [left|exact H]|].
  assert (E : clean_step true cur w = walk_step cur w).
  { unfold clean_step, walk_step. destruct (decide _); [reflexivity|]. destruct (decide _); [|reflexivity]. destruct cur as [|top rest]; [reflexivity|].
    apply Forall_cons in Hc as [(_ & _ & Ht & _) _]. rewrite decide_False by exact Ht. reflexivity. }
  rewrite E. destruct (IH (walk_step cur w)) as [H|(w' & H1 & H2)]; [|left; exact H|right; exists w'; split; [right; exact H1|exact H2]].
  apply (steps_proper cur [w]); [exact Hc|]. constructor; [exact Hw|constructor].
Qed.

Theorem clean_place p : is_abs p = true -> clean p = spelled (place_of p).
Proof.
  intros H. unfold clean, spelled, place_of, walk, clean_elems. rewrite H.
  destruct (clean_steps (split_on slash p) [] (Forall_nil_2 _)) as [->|(w & H1 & H2)]; [reflexivity|].
  exfalso. exact (split_no_slash _ _ H1 H2).
Qed.

Lemma walk_names cur l : Forall proper l -> fold_left walk_step l cur = rev l ++ cur.
Proof.
  revert cur. induction l as [|w l IH]; intros cur H; [reflexivity|]. apply Forall_cons in H as [(A & B & C & _) H]. simpl. rewrite IH by exact H.
  unfold walk_step. rewrite decide_False by tauto. rewrite decide_False by exact C. rewrite <- app_assoc. reflexivity.
Qed.
Lemma spelled_place pl : Forall proper pl -> place_of (spelled pl) = pl.
Proof.
  intros H. unfold place_of, spelled. change (slash :: join_with [slash] (rev pl)) with ([] ++ slash :: join_with [slash] (rev pl)). rewrite walk_app, walk_nil.
  destruct pl as [|w pl]; [reflexivity|]. unfold walk. rewrite split_join.
  - rewrite walk_names; [rewrite rev_involutive, app_nil_r; reflexivity|]. apply Forall_rev. exact H.
  - apply Forall_rev. eapply Forall_impl; [exact H|]. intros x Hx. apply Hx.
  - simpl. destruct (rev pl); discriminate.
Qed.
Lemma spelled_inj a b : Forall proper a -> Forall proper b -> spelled a = spelled b -> a = b.
Proof. intros Ha Hb E. rewrite <- (spelled_place a Ha), E, spelled_place by exact Hb. reflexivity. Qed.

Lemma clean_abs p : is_abs p = true -> is_abs (clean p) = true.
Proof. intros H. rewrite clean_place by exact H. reflexivity. Qed.
Lemma place_clean p : is_abs p = true -> place_of (clean p) = place_of p.
Proof. intros H. rewrite clean_place by exact H. apply spelled_place. apply place_proper. Qed.
Lemma clean_clean p : is_abs p = true -> clean (clean p) = clean p.
Proof. intros H. rewrite (clean_place (clean p)), place_clean, clean_place; auto using clean_abs. Qed.

(** ** Join *)
Theorem join_place b d : is_abs b = true -> join2 b d = spelled (walk (place_of b) d).
Proof.
  intros Hb. unfold join2. destruct b as [|c b]; [discriminate|]. destruct d as [|c' d]; [rewrite clean_place by exact Hb; reflexivity|].
  rewrite clean_place by exact Hb. simpl app. unfold place_of. change (c :: b ++ slash :: c' :: d) with ((c :: b) ++ slash :: c' :: d). rewrite walk_app. reflexivity.
Qed.

(** How a directory is resolved: against [b] unless it is absolute. *)
Theorem resolve_place b d : is_abs b = true ->
  clean (if is_abs d then d else join2 b d) = spelled (place_from b d).
Proof.
  intros Hb. unfold place_from. destruct (is_abs d) eqn:E; [apply clean_place; exact E|]. rewrite join_place by exact Hb.
  rewrite clean_place by reflexivity. rewrite spelled_place; [reflexivity|]. apply walk_proper, place_proper.
Qed.

(** ** Dir *)
Lemma span_plain (n r : str) : slash ∉ n ->
  span (fun c => negb (bool_decide (c = slash))) (n ++ slash :: r) = (n, slash :: r).
Proof.
  intros H. apply span_app; [|reflexivity]. apply Forall_forall. intros c Hc. rewrite bool_decide_eq_false_2 by congruence. reflexivity.
Qed.
Lemma upto_slash q n : slash ∉ n -> upto_last_slash (q ++ slash :: n) = q ++ [slash].
Proof.
  intros H. unfold upto_last_slash. rewrite rev_app_distr. simpl. rewrite <- app_assoc. simpl.
  rewrite span_plain by (intros Hin; apply H; apply elem_of_list_In, in_rev, elem_of_list_In; exact Hin).
  simpl. rewrite rev_involutive. reflexivity.
Qed.
(** The directory of a file. *)
Theorem dir_place q n : slash ∉ n -> is_abs (q ++ [slash]) = true -> dir (q ++ slash :: n) = spelled (place_of q).
Proof.
  intros H Ha. unfold dir. rewrite upto_slash by exact H. rewrite clean_place by exact Ha. unfold place_of. rewrite walk_app. reflexivity.
Qed.
