(** Theorems about the names of parallel items: C70. *)
From Verif Require Import Base Types_Model Path_Model Cond_Model Utf8_Model Utf8_Spec Utf8_Proof Out_Model Label_Model.

(** ** What an item is called *)

(** The first characters of a text. *)
Definition first_chars (n : nat) (s s' : str) : Prop := exists l, text s l /\ s' = concat (map encode_rune (take n l)).
(** The name of an item: its label, else the task it runs, else the first twenty
    characters of its command or message. *)
Inductive called (labels : list str) (items : list run_item) (i : nat) : str -> Prop :=
| called_label l : labels !! i = Some l -> l <> [] -> called labels items i l
| called_task t : (forall l, labels !! i = Some l -> l = []) -> items !! i = Some (RTask t) -> called labels items i (r_task t)
| called_cmd c s : (forall l, labels !! i = Some l -> l = []) -> items !! i = Some (RCmd c) -> first_chars 20 (c_cmd c) s -> called labels items i s
| called_log g s : (forall l, labels !! i = Some l -> l = []) -> items !! i = Some (RLog g) -> first_chars 20 (l_log g) s -> called labels items i s.

Lemma truncate_first n s l : text s l -> first_chars n s (truncate_runes s n).
Proof.
  intros H. exists l. split; [exact H|]. unfold truncate_runes. rewrite (runes_of_text s l H). destruct (Nat.ltb_spec n (length l)); [reflexivity|]. rewrite take_ge by lia. apply H.
Qed.
Lemma called_unique labels items i s s' : called labels items i s -> called labels items i s' -> s = s'.
Proof.
  assert (F : forall n (c a b : str), first_chars n c a -> first_chars n c b -> a = b) by (intros n c a b (l & H & ->) (l' & H' & ->); rewrite (text_unique _ _ _ H H'); reflexivity).
  intros H H'. destruct H, H'; try congruence; try (exfalso; match goal with H : forall l, _ -> l = [], E : labels !! i = Some _, N : _ <> [] |- _ => exact (N (H _ E)) end).
  - assert (c = c0) as <- by congruence. eapply F; eassumption.
  - assert (g = g0) as <- by congruence. eapply F; eassumption.
Qed.
Definition runnable (it : run_item) : Prop :=
  match it with RTask _ => True | RCmd c => exists l, text (c_cmd c) l | RLog g => exists l, text (l_log g) l | _ => False end.
Theorem C70_label o items i it s : items !! i = Some it -> runnable it -> (item_label o items i = s <-> called (q_labels o) items i s).
Proof.
  intros Hi Hr. assert (H : called (q_labels o) items i (item_label o items i)).
  { unfold item_label. destruct (q_labels o !! i) as [[|c l]|] eqn:E; [| constructor 1; [exact E|discriminate] |]; rewrite Hi.
    - assert (Hl : forall l, q_labels o !! i = Some l -> l = []) by (intros l; congruence). destruct it; try contradiction; [destruct Hr as [l Hl']; econstructor 3; [exact Hl|exact Hi|exact (truncate_first _ _ _ Hl')]|econstructor 2; eauto|destruct Hr as [l0 Hl']; econstructor 4; [exact Hl|exact Hi|exact (truncate_first _ _ _ Hl')]].
    - assert (Hl : forall l, q_labels o !! i = Some l -> l = []) by (intros l; congruence). destruct it; try contradiction; [destruct Hr as [l Hl']; econstructor 3; [exact Hl|exact Hi|exact (truncate_first _ _ _ Hl')]|econstructor 2; eauto|destruct Hr as [l0 Hl']; econstructor 4; [exact Hl|exact Hi|exact (truncate_first _ _ _ Hl')]]. }
  split; [intros <-; exact H|intros H'; eapply called_unique; eassumption].
Qed.

(** ** The prefixes of a block *)
Lemma runes_len s : length (runes s) <= length s.
Proof.
  unfold runes. rewrite fmap_length. induction s as [|s r n H IH] using units_ind; [simpl; lia|]. rewrite (units_step _ _ _ H). destruct (decode_range _ _ _ H) as (Hr & _). destruct s as [|a s]; [discriminate H|]. simpl. rewrite drop_length in IH. simpl in IH. assert (1 <= n) by (destruct n; [|lia]; exfalso; revert H; unfold decode_rune; clear; intros H; repeat (case_match; try discriminate)). lia.
Qed.
Lemma max_label_ge labels l : l ∈ labels -> length l <= max_label labels.
Proof.
  assert (G : forall ls m, m <= fold_left (fun m (l : str) => if m <? length l then length l else m) ls m /\ forall l, l ∈ ls -> length l <= fold_left (fun m (l : str) => if m <? length l then length l else m) ls m).
  { induction ls as [|x ls IH]; intros m; [split; [simpl; lia|intros y Hy; apply elem_of_nil in Hy as []]|]. cbn [fold_left]. destruct (IH (if m <? length x then length x else m)) as [H1 H2]. split; [destruct (Nat.ltb_spec m (length x)); lia|].
    intros y Hy. apply elem_of_cons in Hy as [->|Hy]; [destruct (Nat.ltb_spec m (length x)); lia|apply H2; exact Hy]. }
  intros H. apply (proj2 (G labels 0)). exact H.
Qed.
Lemma space_text n : text (repeat " "%char n) (repeat 32%N n).
Proof. split; [induction n; constructor; [left; lia|exact IHn]|induction n; [reflexivity|]; simpl; rewrite <- IHn; reflexivity]. Qed.
Lemma text_app a b l l' : text a l -> text b l' -> text (a ++ b) (l ++ l').
Proof. intros [H ->] [H' ->]. split; [apply Forall_app; auto|]. rewrite map_app, concat_app. reflexivity. Qed.
Lemma prefix_text label l width : text label l -> text (label_prefix label width) ([91%N] ++ l ++ repeat 32%N (width - length l) ++ [93%N; 32%N]).
Proof.
  intros H. unfold label_prefix, pad_right. rewrite (runes_of_text _ _ H). apply (text_app (lit "[") _ [91%N]); [split; [repeat constructor; lia|reflexivity]|]. rewrite <- app_assoc. apply text_app; [exact H|]. apply text_app; [apply space_text|split; [repeat constructor; lia|reflexivity]].
Qed.
(** All prefixes of a block have as many characters. *)
Theorem C70_aligned o items i j w : let labels := block_labels o items in
  w = max_label labels -> forall a b la lb, labels !! i = Some a -> labels !! j = Some b -> text a la -> text b lb ->
  exists pa pb, text (label_prefix a w) pa /\ text (label_prefix b w) pb /\ length pa = length pb.
Proof.
  intros labels -> a b la lb Ha Hb Ta Tb. assert (La : length la <= max_label labels) by (etransitivity; [|apply max_label_ge; eapply elem_of_list_lookup_2; exact Ha]; rewrite <- (runes_of_text _ _ Ta); apply runes_len).
  assert (Lb : length lb <= max_label labels) by (etransitivity; [|apply max_label_ge; eapply elem_of_list_lookup_2; exact Hb]; rewrite <- (runes_of_text _ _ Tb); apply runes_len).
  do 2 eexists. split; [apply (prefix_text _ _ _ Ta)|]. split; [apply (prefix_text _ _ _ Tb)|]. rewrite !app_length, !repeat_length. simpl. lia.
Qed.
(** A printed line tells the item: the beginning of a line is the prefix of one item
    only, unless two are called the same but for spaces at the end. *)
Definition spaces (s : str) : Prop := Forall (fun c => c = " "%char) s.
Lemma text_prefix p q x y lp lq : text p lp -> text q lq -> length lp = length lq -> p ++ x = q ++ y -> p = q.
Proof.
  intros [Hp ->] [Hq ->]. revert lq Hq. induction Hp as [|r lp Hr Hp IH]; intros lq Hq Hl E; [destruct lq; [reflexivity|discriminate Hl]|].
  destruct lq as [|r' lq]; [discriminate Hl|]. apply Forall_cons in Hq as [Hr' Hq]. cbn [map concat] in *. rewrite <- !app_assoc in E.
  assert (D : decode_rune (encode_rune r ++ concat (map encode_rune lp) ++ x) = decode_rune (encode_rune r' ++ concat (map encode_rune lq) ++ y)) by (rewrite E; reflexivity).
  rewrite !decode_encode in D by assumption. injection D as -> _. apply app_inv_head in E. f_equal. apply (IH lq Hq); [simpl in Hl; lia|exact E].
Qed.
Lemma all_spaces b : spaces b -> b = repeat " "%char (length b).
Proof. intros H. induction H as [|x b -> H IH]; [reflexivity|]. simpl. f_equal. exact IH. Qed.
Lemma spaces_tail (a b : str) n m : a ++ repeat " "%char n = b ++ repeat " "%char m -> (exists k, a = b ++ repeat " "%char k) \/ exists k, b = a ++ repeat " "%char k.
Proof.
  revert b. induction a as [|c a IH]; intros b E.
  - right. exists (length b). simpl in *. assert (H : Forall (fun c => c = " "%char) b). { assert (H : Forall (fun c => c = " "%char) (repeat " "%char n)) by (apply Forall_forall; intros x Hx; apply elem_of_list_In in Hx; eapply repeat_spec; exact Hx). rewrite E in H. apply Forall_app in H as [H _]. exact H. }
    exact (all_spaces b H).
  - destruct b as [|d b].
    + left. exists (length (c :: a)). assert (H : Forall (fun c => c = " "%char) (c :: a)). { assert (H : Forall (fun c => c = " "%char) (repeat " "%char m)) by (apply Forall_forall; intros x Hx; apply elem_of_list_In in Hx; eapply repeat_spec; exact Hx). simpl ([] ++ _) in E. rewrite <- E in H. apply Forall_app in H as [H _]. exact H. }
      exact (all_spaces _ H).
    + simpl in E. injection E as -> E. destruct (IH b E) as [[k ->]|[k ->]]; [left|right]; exists k; reflexivity.
Qed.
Theorem C70_line_tells_item o items i j a b la lb x y : let labels := block_labels o items in let w := max_label labels in
  labels !! i = Some a -> labels !! j = Some b -> text a la -> text b lb ->
  label_prefix a w ++ x = label_prefix b w ++ y -> x = y /\ exists n, a = b ++ repeat " "%char n \/ b = a ++ repeat " "%char n.
Proof.
  intros labels w Ha Hb Ta Tb E. destruct (C70_aligned o items i j w eq_refl a b la lb Ha Hb Ta Tb) as (pa & pb & Pa & Pb & Hl).
  pose proof (text_prefix _ _ _ _ _ _ Pa Pb Hl E) as Ep. split; [rewrite Ep in E; apply app_inv_head in E; exact E|]. unfold label_prefix, pad_right in Ep. apply app_inv_head in Ep. apply app_inv_tail in Ep. apply spaces_tail in Ep as [[k Hk]|[k Hk]]; exists k; auto.
Qed.
(** Two commands that begin alike are called the same. *)
Theorem C70_same_name_refuted : exists o c1 c2, c_cmd c1 <> c_cmd c2 /\ block_labels o [RCmd c1; RCmd c2] = [lit "go test ./internal/p"; lit "go test ./internal/p"].
Proof.
  exists (ParOpts 1 [] [] 0 None None None [] []), (CmdRun 2 (lit "go test ./internal/parser") [] None None None [] []), (CmdRun 3 (lit "go test ./internal/paths") [] None None None [] []).
  split; [vm_compute; discriminate|vm_compute; reflexivity].
Qed.
(** The name, and so the prefix, of a command of several lines has several lines. *)
Theorem C70_one_line_refuted : exists o c w, nl ∈ label_prefix (item_label o [RCmd c] 0) w.
Proof. exists (ParOpts 1 [] [] 0 None None None [] []), (CmdRun 2 (lit "cd x" ++ [nl] ++ lit "make" ++ [nl]) [] None None None [] []), 10. apply (bool_decide_eq_true_1 _). vm_compute. reflexivity. Qed.
(** With labels of one line, no prefix breaks a line. *)
Lemma of_runes_low c l : byte c ∈ l -> (byte c < 128)%N -> c ∈ of_runes l.
Proof. intros H Hc. unfold of_runes. apply elem_of_list_In, in_concat. exists (encode_rune (byte c)). split; [apply in_map, elem_of_list_In, H|]. rewrite encode_ascii by exact Hc. rewrite of_byte_byte. left. reflexivity. Qed.
Theorem C70_one_line label w : nl ∉ label -> nl ∉ label_prefix label w.
Proof.
  intros H. unfold label_prefix, pad_right. rewrite !not_elem_of_app. assert (G : forall k l, bool_decide (k ∈ l) = false -> k ∉ (l : str)) by (intros k l; apply bool_decide_eq_false_1).
  repeat split; try (apply G; vm_compute; reflexivity); [exact H|]. intros Hn. apply elem_of_list_In, repeat_spec in Hn. discriminate Hn.
Qed.

(** ** The summary *)

(** From the summary and the names one reads off how every item ended. *)
Lemma sign_inj e e' x y : outcome_sign e ++ x = outcome_sign e' ++ y -> e = e' /\ x = y.
Proof. destruct e, e'; intros E; injection E as E; try discriminate; auto. Qed.
Theorem C70_summary labels errs errs' : length errs = length labels -> length errs' = length labels -> render_done labels errs = render_done labels errs' -> errs = errs'.
Proof.
  intros H H' E. unfold render_done in E. rewrite H, H', Nat.eqb_refl in E. cbn [negb] in E. do 2 apply app_inv_head in E. apply app_inv_tail in E.
  revert errs errs' H H' E. induction labels as [|l labels IH]; intros errs errs' H H' E; [destruct errs, errs'; try discriminate; reflexivity|].
  destruct errs as [|e errs]; [discriminate H|]. destruct errs' as [|e' errs']; [discriminate H'|]. injection H as H. injection H' as H'. rewrite !imap_cons in E. cbn [lookup list_lookup] in E.
  assert (Ei : forall es d, imap ((fun i (l0 : str) => l0 ++ lit " " ++ match (d :: es) !! i with Some e0 => outcome_sign e0 | None => outcome_sign Fine end) ∘ S) labels = imap (fun i (l0 : str) => l0 ++ lit " " ++ match es !! i with Some e0 => outcome_sign e0 | None => outcome_sign Fine end) labels) by (intros es d; apply imap_ext; intros; reflexivity).
  rewrite !Ei in E. clear Ei. destruct labels as [|l2 labels].
  - simpl in E. apply app_inv_head in E. injection E as E. destruct errs; [|discriminate H]. destruct errs'; [|discriminate H']. f_equal. apply (sign_inj e e' [] []). rewrite !app_nil_r. exact E.
  - assert (J : forall (p : str) ps, ps <> [] -> join_with (lit "  ") (p :: ps) = p ++ lit "  " ++ join_with (lit "  ") ps) by (intros p [|q ps]; [congruence|reflexivity]).
    rewrite !J in E by (rewrite imap_cons; discriminate). rewrite <- !app_assoc in E. do 2 apply app_inv_head in E. apply sign_inj in E as [-> E]. apply app_inv_head in E. f_equal. apply IH; assumption.
Qed.
(** Every item is named, in order. *)
Theorem C70_summary_names labels errs : length errs = length labels ->
  exists parts, render_done labels errs = lit "● Parallel [" ++ join_with (lit "  ") parts ++ lit "]" /\ length parts = length labels /\
    forall i l e, labels !! i = Some l -> errs !! i = Some e -> parts !! i = Some (l ++ lit " " ++ match e with Fine => lit "✓" | Cancelled => lit "⊘" | Failed => lit "✗" end).
Proof.
  intros H. unfold render_done. rewrite H, Nat.eqb_refl. cbn [negb]. eexists. split; [reflexivity|]. split; [apply imap_length|]. intros i l e Hl He. rewrite list_lookup_imap, Hl. simpl. rewrite He. destruct e; reflexivity.
Qed.

Example C70_met : block_labels (ParOpts 1 [[]; lit "api"] [] 0 None None None [] []) [RTask (TaskRun 2 (lit "b:c") None None [] []); RCmd (CmdRun 3 (lit "go run ./server --port 80") [] None None None [] []); RCmd (CmdRun 4 (bytes [195; 188] ++ lit "berpruefe alles was da ist") [] None None None [] [])] =
    [lit "b:c"; lit "api"; bytes [195; 188] ++ lit "berpruefe alles was"] /\
  map (fun l => label_prefix l 21) [lit "b:c"; bytes [195; 188] ++ lit "berpruefe alles was"] = [lit "[b:c                  ] "; lit "[" ++ bytes [195; 188] ++ lit "berpruefe alles was ] "] /\
  text (lit "api") [97; 112; 105]%N.
Proof. split; [vm_compute; reflexivity|]. split; [vm_compute; reflexivity|]. split; [repeat constructor; lia|reflexivity]. Qed.

Print Assumptions C70_label.
Print Assumptions C70_aligned.
Print Assumptions C70_line_tells_item.
Print Assumptions C70_same_name_refuted.
Print Assumptions C70_one_line_refuted.
Print Assumptions C70_one_line.
Print Assumptions C70_summary.
Print Assumptions C70_summary_names.
