(** Theorems about what a prompt shows: C98. *)
From Verif Require Import Base Path_Model Types_Model Doc_Model Doc_Spec Doc_Item Prompt_Model P_Prompt.

(** ** Specification *)

(** What a prompt shows first, by its type. *)
Inductive presents (p : prompt_run) (msg : str) : form -> Prop :=
| presents_confirm b : p_type p = lit "confirm" -> (b = true <-> means_yes (p_default p)) -> presents p msg (FConfirm msg b)
| presents_text ok : one_of ["input"; "number"] (p_type p) -> presents p msg (FInput msg (p_default p) (p_placeholder p) ok true)
| presents_select : p_type p = lit "select" -> presents p msg (FSelect msg (p_options p) (p_default p))
| presents_multi os ok : p_type p = lit "multiselect" -> map fst os = p_options p ->
    (forall o b, (o, b) ∈ os -> b = true <-> o ∈ p_defaults p) -> presents p msg (FMulti msg os ok)
| presents_password ok : p_type p = lit "password" -> presents p msg (FInput msg [] [] ok false).

(** The form was submitted as it was shown. *)
Inductive untouched : form -> reply -> Prop :=
| untouched_confirm t b : untouched (FConfirm t b) (Yes b)
| untouched_input t i ph ok sh : untouched (FInput t i ph ok sh) (Text i)
| untouched_select t os i : i ∈ os -> untouched (FSelect t os i) (Text i)
| untouched_multi t os ok : untouched (FMulti t os ok) (Picked (map fst (List.filter snd os))).

(** ** Proofs *)
Lemma filter_marks (ds os : list str) : map fst (List.filter snd (map (fun o => (o, bool_decide (o ∈ ds))) os)) = List.filter (fun o => bool_decide (o ∈ ds)) os.
Proof. induction os as [|o os IH]; [reflexivity|]. simpl. destruct (bool_decide _); simpl; rewrite IH; reflexivity. Qed.
Lemma filter_sublist (ds os : list str) : NoDup os -> ds `sublist_of` os -> List.filter (fun o => bool_decide (o ∈ ds)) os = ds.
Proof.
  intros N H. induction H as [|o l1 l2 H IH|o l1 l2 H IH]; [reflexivity| |]; apply NoDup_cons in N as [Ho N]; simpl.
  - rewrite bool_decide_eq_true_2 by left. f_equal. transitivity (List.filter (fun o => bool_decide (o ∈ l1)) l2); [|apply IH; exact N]. apply List.filter_ext_in. intros x Hx. apply elem_of_list_In in Hx. apply bool_decide_ext. rewrite elem_of_cons. split; [intros [->|E]; [contradiction|exact E]|auto].
  - rewrite bool_decide_eq_false_2; [apply IH; exact N|]. intros E. apply Ho. pose proof (sublist_in _ _ H) as F. rewrite Forall_forall in F. exact (F _ E).
Qed.
Lemma no_yes : ~ means_yes [].
Proof. intros (w & Hw & H). inversion H; subst. revert Hw. apply not_one_of. vm_compute. reflexivity. Qed.
Lemma confirm_start L p : lower_ok L -> match p_default p with [] => false | d => bool_decide (normalize_confirm L d = lit "true") end = true <-> means_yes (p_default p).
Proof.
  intros HL. destruct (p_default p) as [|c d] eqn:E; [split; [discriminate|intros H; destruct (no_yes H)]|]. rewrite bool_decide_eq_true.
  destruct (normalize_spec L (c :: d) HL) as [[H ->]|[H ->]]; split; auto; [discriminate|contradiction].
Qed.

(** C98. The first form of a prompt shows the message and what the prompt declares;
    a prompt that the parser let through does show one. *)
Theorem C98_presents L p msg d r : lower_ok L -> asked (run_prompt L true p msg) d r ->
  (forall f o d', d = (f, o) :: d' -> presents p msg f) /\
  (known_type p -> (p_validate p <> [] -> pl_compiles L (p_validate p) = true) -> d <> []).
Proof.
  intros HL H. destruct (types_apart p) as [Et|[Et|[Et|[Et|[Et|[Et|Et]]]]]].
  1-6: rewrite (run_typed _ _ _ _ Et) in H; rewrite ?bool_decide_eq_true_2, ?bool_decide_eq_false_2 in H by (reflexivity || discriminate).
  - apply asked_submitted in H as (o & d' & -> & _). split; [|discriminate]. intros f o' d'' [= <- _ _]. apply presents_confirm; [exact Et|]. apply confirm_start. exact HL.
  - unfold run_input in H. destruct (p_validate p) as [|c v]; [|destruct (pl_compiles L (c :: v))].
    1,2: apply asked_submitted in H as (o & d' & -> & _); split; [|discriminate]; intros f o' d'' [= <- _ _]; apply presents_text; rewrite Et; apply is_one_of; vm_compute; reflexivity.
    apply asked_Answer in H as [-> _]. split; [discriminate|]. intros _ Hv. discriminate Hv. discriminate.
  - apply asked_submitted in H as (o & d' & -> & _). split; [|discriminate]. intros f o' d'' [= <- _ _]. apply presents_select. exact Et.
  - apply asked_submitted in H as (o & d' & -> & _). split; [|discriminate]. intros f o' d'' [= <- _ _]. apply presents_multi; [exact Et| |].
    + rewrite map_map. apply map_id.
    + intros x b Hx. apply elem_of_list_In, in_map_iff in Hx as (y & [= -> <-] & _). apply bool_decide_eq_true.
  - apply asked_submitted in H as (o & d' & -> & _). split; [|discriminate]. intros f o' d'' [= <- _ _]. apply presents_password. exact Et.
  - apply asked_submitted in H as (o & d' & -> & _). split; [|discriminate]. intros f o' d'' [= <- _ _]. apply presents_text. rewrite Et. apply is_one_of. vm_compute. reflexivity.
  - unfold run_prompt in H. cbn zeta in H. rewrite !bool_decide_eq_false_2 in H by (intros E; apply Et; unfold known_type; rewrite E; apply is_one_of; vm_compute; reflexivity).
    apply asked_Answer in H as [-> _]. split; [discriminate|]. intros K. contradiction.
Qed.

(** Submitting the forms as they are shown gives what the prompt would answer without a
    terminal. Missing: a multiselect whose defaults are in another order than its options. *)
Theorem C98_untouched_partial L p msg d s v : lower_ok L -> asked (run_prompt L true p msg) d (Ok s) -> (forall f o, (f, o) ∈ d -> untouched f o) ->
  asked (run_prompt L false p msg) [] (Ok v) ->
  (p_type p = lit "multiselect" -> NoDup (p_options p) /\ p_defaults p `sublist_of` p_options p) -> s = v.
Proof.
  intros HL H Hu Hv Hm. destruct (C52_declared_default L p msg [] (Ok v) HL Hv) as (_ & Hd & _). destruct (Hd v) as [Hd' _]. specialize (Hd' eq_refl).
  assert (Hf : forall f k, asked (submitted f (fun o => Answer (Ok (k o)))) d (Ok s) -> exists o, untouched f o /\ s = k o).
  { intros f k Hs. apply asked_submitted in Hs as (o & d' & -> & _ & [(_ & E & _)|[(_ & E & _)|(_ & _ & E)]]); [discriminate E..|]. apply asked_Answer in E as [-> [= ->]]. exists o. split; [apply Hu; left|reflexivity]. }
  destruct Hd' as [Et Hne Hy|Et Hne Hy|Et Hne|Et Hne].
  1,2,4: rewrite (run_typed _ _ _ _ Et) in H; rewrite ?bool_decide_eq_true_2, ?bool_decide_eq_false_2 in H by (reflexivity || discriminate).
  - unfold run_confirm in H. rewrite (proj2 (confirm_start L p HL) Hy) in H. apply Hf in H as (o & Ho & ->). inversion Ho; subst. reflexivity.
  - unfold run_confirm in H. rewrite (not_true_is_false _ (fun E => Hy (proj1 (confirm_start L p HL) E))) in H. apply Hf in H as (o & Ho & ->). inversion Ho; subst. reflexivity.
  - apply Hf in H as (o & Ho & ->). inversion Ho; subst. destruct (Hm Et) as [N Hs]. cbn [picked_of]. rewrite filter_marks, (filter_sublist _ _ N Hs). reflexivity.
  - cbn [map one_of] in Et. unfold one_of in Et. cbn [map] in Et. rewrite !elem_of_cons, elem_of_nil in Et. destruct Et as [Et|[Et|[Et|[]]]];
      rewrite (run_typed _ _ _ _ Et) in H; rewrite ?bool_decide_eq_true_2, ?bool_decide_eq_false_2 in H by (reflexivity || discriminate).
    + unfold run_input in H. destruct (p_validate p); [|destruct (pl_compiles L _); [|apply asked_Answer in H as [_ H]; discriminate H]]; apply Hf in H as (o & Ho & ->); inversion Ho; subst; reflexivity.
    + apply Hf in H as (o & Ho & ->). inversion Ho; subst; reflexivity.
    + apply Hf in H as (o & Ho & ->). inversion Ho; subst; reflexivity.
Qed.
(** The defaults of a multiselect in another order: the two answers differ. *)
Theorem C98_untouched_refuted : exists L p msg d s v, asked (run_prompt L true p msg) d (Ok s) /\ (forall f o, (f, o) ∈ d -> untouched f o) /\
  asked (run_prompt L false p msg) [] (Ok v) /\ Forall (fun o => o ∈ p_options p) (p_defaults p) /\ NoDup (p_defaults p) /\ s <> v.
Proof.
  exists toyl, (pr "multiselect" "" ["b"; "a"] ["a"; "b"; "c"] "" None None None), []. eexists _, (lit "a,b"), (lit "b,a").
  split; [apply (submitted_asked _ _ (Picked [lit "a"; lit "b"]) []); [|discriminate..|apply asked_answer]|].
  { constructor; [|reflexivity]. cbn. apply sublist_skip, sublist_skip, sublist_cons, sublist_nil. }
  split; [|split; [apply asked_answer|]].
  - intros f o H. apply elem_of_list_singleton in H as [= -> ->]. exact (untouched_multi _ _ _).
  - split; [|split; [|discriminate]].
    + repeat constructor; apply (bool_decide_eq_true_1 (_ ∈ _)); vm_compute; reflexivity.
    + apply (bool_decide_eq_true_1 (NoDup _)). vm_compute. reflexivity.
Qed.
(** A confirm that defaults to yes in capitals, submitted as it is. *)
Example C98_met : let p := pr "confirm" "YES" [] [] "" None None None in
  exists d, asked (run_prompt toyl true p (lit "Go?")) d (Ok (lit "true")) /\ (forall f o, (f, o) ∈ d -> untouched f o) /\
    asked (run_prompt toyl false p (lit "Go?")) [] (Ok (lit "true")) /\ presents p (lit "Go?") (FConfirm (lit "Go?") true).
Proof.
  intros p. eexists. split; [apply (submitted_asked _ _ (Yes true) []); [constructor|discriminate..|apply asked_answer]|].
  split; [intros f o H; apply elem_of_list_singleton in H as [= -> ->]; constructor|]. split; [apply asked_answer|].
  apply presents_confirm; [reflexivity|]. split; [intros _|reflexivity]. exists (lit "yes"). split; [apply is_one_of; vm_compute; reflexivity|].
  repeat (constructor; [right; vm_compute; lia|]). constructor.
Qed.
Print Assumptions C98_presents.
Print Assumptions C98_untouched_partial.
Print Assumptions C98_untouched_refuted.
