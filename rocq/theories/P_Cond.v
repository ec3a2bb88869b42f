(** Properties C06 and C07: [when] conditions. *)
From Verif Require Import Base Interp_Model Interp_Spec Interp_Proof Vars_Proof P_Interp Cond_Model Cond_Spec Cond_Proof.

(** The right part of a condition: operator, gap, quoted literal. *)
Definition rhs_text (eq : bool) (w2 : str) (q : ascii) (R : str) : str :=
  (if eq then lit "==" else lit "!=") ++ w2 ++ [q] ++ R ++ [q].

(** * C06 *)

(** Any condition: if the interpolated, trimmed text is a comparison, the item
    runs iff the trimmed, unquoted left side equals (differs from) the literal. *)
Theorem C06_comparison :
  forall getenv vars cond x t L R eq l u,
    (forall y, nul_free (getenv y)) -> all_nul_free vars -> nul_free cond -> cond <> [] ->
    template_value getenv (in_map vars) cond x ->
    trimmed x t -> comparison t L R eq -> trimmed L l -> unquoted l u ->
    exists b, evaluate getenv vars cond = Ok b /\ (b = true <-> if eq then u = R else u <> R).
Proof.
  intros getenv vars cond x t L R eq l u Hg Hv Hc Hne Hx Ht Hcmp Hl Hu.
  exists (evaluate_text x). split.
  - unfold evaluate. destruct (decide (cond = [])) as [|_]; [contradiction|].
    rewrite (proj2 (interpolate_Ok getenv vars Hg Hv cond Hc x) Hx). reflexivity.
  - rewrite (evaluate_text_comparison _ _ _ _ _ _ _ Ht Hcmp Hl Hu).
    destruct eq; [apply bool_decide_eq_true|]. rewrite negb_true_iff. apply bool_decide_eq_false.
Qed.
Print Assumptions C06_comparison.

(** [${{ n }} == 'R'] (either operator, either quote): runs iff the variable's
    trimmed, unquoted value equals (differs from) R, for every value that is not
    blank and has no newline, even if it contains operators and quotes itself. *)
Theorem C06_variable_equals_literal :
  forall getenv vars ref n v t u w1 w2 eq q R,
    (forall y, nul_free (getenv y)) -> all_nul_free vars ->
    ref_text ref n -> means getenv (in_map vars) n v ->
    trimmed v t -> t <> [] -> "010"%char ∉ v -> unquoted t u ->
    gap w1 -> gap w2 -> quote_char q -> q ∉ R ->
    nul_free (w1 ++ rhs_text eq w2 q R) -> (forall a b, w1 ++ rhs_text eq w2 q R <> a ++ lit "${{" ++ b) ->
    exists b, evaluate getenv vars (ref ++ w1 ++ rhs_text eq w2 q R) = Ok b /\
              (b = true <-> if eq then u = R else u <> R).
Proof.
  intros getenv vars ref n v t u w1 w2 eq q R Hg Hv Hr Hm Ht Hne Hnl Hu Hw1 Hw2 Hq HR Hnf Hno.
  exists (evaluate_text (v ++ w1 ++ rhs_text eq w2 q R)). split.
  - unfold evaluate. destruct (decide _) as [E|_].
    { destruct (ref_text_cons _ _ Hr) as (z & -> & _). discriminate E. }
    rewrite (interpolate_ref_plain getenv vars ref n v _ Hg Hv Hr Hm Hnf Hno). reflexivity.
  - change (rhs_text eq w2 q R) with (cmp_text eq w2 q R). rewrite (value_comparison v t u w1 w2 eq q R) by assumption.
    destruct eq; [apply bool_decide_eq_true|]. rewrite negb_true_iff. apply bool_decide_eq_false.
Qed.
Print Assumptions C06_variable_equals_literal.

(** The same when the value is surrounded by ASCII white space that may include
    newlines, as long as there is no newline inside. *)
Theorem C06_variable_with_surrounding_newlines :
  forall getenv vars ref n a t b u w1 w2 eq q R,
    (forall y, nul_free (getenv y)) -> all_nul_free vars ->
    ref_text ref n -> means getenv (in_map vars) n (a ++ t ++ b) ->
    gap a -> gap b -> trimmed t t -> t <> [] -> "010"%char ∉ t -> unquoted t u ->
    gap w1 -> gap w2 -> quote_char q -> q ∉ R ->
    nul_free (w1 ++ rhs_text eq w2 q R) -> (forall a b, w1 ++ rhs_text eq w2 q R <> a ++ lit "${{" ++ b) ->
    exists r, evaluate getenv vars (ref ++ w1 ++ rhs_text eq w2 q R) = Ok r /\
              (r = true <-> if eq then u = R else u <> R).
Proof.
  intros getenv vars ref n a t b u w1 w2 eq q R Hg Hv Hr Hm Ha Hb Ht Hne Hnl Hu Hw1 Hw2 Hq HR Hnf Hno.
  exists (evaluate_text ((a ++ t ++ b) ++ w1 ++ rhs_text eq w2 q R)). split.
  - unfold evaluate. destruct (decide _) as [E|_].
    { destruct (ref_text_cons _ _ Hr) as (z & -> & _). discriminate E. }
    rewrite (interpolate_ref_plain getenv vars ref n _ _ Hg Hv Hr Hm Hnf Hno). reflexivity.
  - pose proof (value_comparison_gen a t [] b u w1 w2 eq q R) as E. rewrite app_nil_l in E.
    change (rhs_text eq w2 q R) with (cmp_text eq w2 q R). rewrite E; try assumption; [|apply gap_blank; assumption|constructor|rewrite app_nil_r; exact Hnl].
    destruct eq; [apply bool_decide_eq_true|]. rewrite negb_true_iff. apply bool_decide_eq_false.
Qed.
Print Assumptions C06_variable_with_surrounding_newlines.

(** The property "whatever characters the value contains" is false (finding F1):
    for EVERY blank value and every literal, both [==] and [!=] run. *)
Theorem C06_blank_value_refuted :
  forall getenv vars ref n v w1 w2 eq q R,
    (forall y, nul_free (getenv y)) -> all_nul_free vars ->
    ref_text ref n -> means getenv (in_map vars) n v -> blank v ->
    gap w1 -> gap w2 -> quote_char q -> q ∉ R ->
    nul_free (w1 ++ rhs_text eq w2 q R) -> (forall a b, w1 ++ rhs_text eq w2 q R <> a ++ lit "${{" ++ b) ->
    evaluate getenv vars (ref ++ w1 ++ rhs_text eq w2 q R) = Ok true.
Proof.
  intros getenv vars ref n v w1 w2 eq q R Hg Hv Hr Hm Hb Hw1 Hw2 Hq HR Hnf Hno.
  unfold evaluate. destruct (decide _) as [E|_].
  { destruct (ref_text_cons _ _ Hr) as (z & -> & _). discriminate E. }
  rewrite (interpolate_ref_plain getenv vars ref n v _ Hg Hv Hr Hm Hnf Hno). f_equal.
  apply blank_value_runs; assumption.
Qed.
Print Assumptions C06_blank_value_refuted.

(** Likewise for every value with a newline inside. *)
Theorem C06_newline_value_refuted :
  forall getenv vars ref n v t w1 w2 eq q R,
    (forall y, nul_free (getenv y)) -> all_nul_free vars ->
    ref_text ref n -> means getenv (in_map vars) n v -> trimmed v t -> "010"%char ∈ t ->
    gap w1 -> gap w2 -> quote_char q -> q ∉ R ->
    nul_free (w1 ++ rhs_text eq w2 q R) -> (forall a b, w1 ++ rhs_text eq w2 q R <> a ++ lit "${{" ++ b) ->
    evaluate getenv vars (ref ++ w1 ++ rhs_text eq w2 q R) = Ok true.
Proof.
  intros getenv vars ref n v t w1 w2 eq q R Hg Hv Hr Hm Ht Hnl Hw1 Hw2 Hq HR Hnf Hno.
  unfold evaluate. destruct (decide _) as [E|_].
  { destruct (ref_text_cons _ _ Hr) as (z & -> & _). discriminate E. }
  rewrite (interpolate_ref_plain getenv vars ref n v _ Hg Hv Hr Hm Hnf Hno). f_equal.
  eapply newline_value_runs; eassumption.
Qed.
Print Assumptions C06_newline_value_refuted.

Definition when_env (_ : str) : str := [].
Definition when_vars : gmap str str :=
  <[lit "e" := lit "a == 'b' "]> (<[lit "blank" := lit "  "]> (<[lit "nl" := lit "a" ++ ["010"%char] ++ lit "b"]> {[ lit "x" := lit " 'prod' " ]})).

Example C06_example_eq : evaluate when_env when_vars (lit "${{ x }} == 'prod'") = Ok true.
Proof. vm_compute. reflexivity. Qed.
Example C06_example_ne : evaluate when_env when_vars (lit "${{ x }} != ""prod""") = Ok false.
Proof. vm_compute. reflexivity. Qed.
Example C06_example_operator_in_value : evaluate when_env when_vars (lit "${{ e }} == 'b'") = Ok false.
Proof. vm_compute. reflexivity. Qed.
Example C06_example_blank : evaluate when_env when_vars (lit "${{ blank }} == 'prod'") = Ok true.
Proof. vm_compute. reflexivity. Qed.
Example C06_example_newline : evaluate when_env when_vars (lit "${{ nl }} == 'prod'") = Ok true.
Proof. vm_compute. reflexivity. Qed.
(** The hypotheses on values are met by [ 'prod' ]. *)
Example C06_hypotheses : trimmed (lit " 'prod' ") (lit "'prod'") /\ lit "'prod'" <> [] /\
  "010"%char ∉ lit " 'prod' " /\ unquoted (lit "'prod'") (lit "prod") /\ gap (lit " ") /\ quote_char "'"%char /\
  ref_text (lit "${{ x }}") (lit "x") /\ nul_free (lit " " ++ rhs_text true (lit " ") "'"%char (lit "prod")).
Proof.
  split; [apply trimmed_trim_space; vm_compute; reflexivity|]. split; [discriminate|].
  split; [apply (bool_decide_unpack _); vm_compute; exact I|].
  split; [apply unquoted_trim_quotes; vm_compute; reflexivity|].
  split; [repeat constructor; tauto|]. split; [left; reflexivity|].
  split; [|apply (bool_decide_unpack (nul_free _)); vm_compute; exact I].
  apply (ref_text_intro (lit " ") "x"%char [] (lit " ")); [repeat constructor; unfold spec_ws; tauto| |constructor|repeat constructor; unfold spec_ws; tauto].
  left. vm_compute. lia.
Qed.

(** * C07 *)

(** Surrounding white space is well defined: each text has exactly one trimmed form. *)
Theorem C07_trimming_is_well_defined :
  forall s, exists t, trimmed s t /\ forall t', trimmed s t' -> t' = t.
Proof.
  intros s. exists (trim_space s). split; [apply trimmed_trim_space; reflexivity|].
  intros t' H. apply trimmed_trim_space in H. congruence.
Qed.
Print Assumptions C07_trimming_is_well_defined.

(** A condition that is not a comparison is skipped iff its trimmed text is empty or a
    case variant of [false]. *)
Theorem C07_truthiness :
  forall getenv vars cond x t,
    (forall y, nul_free (getenv y)) -> all_nul_free vars -> nul_free cond -> cond <> [] ->
    template_value getenv (in_map vars) cond x -> trimmed x t -> (forall L R eq, ~ comparison t L R eq) ->
    exists b, evaluate getenv vars cond = Ok b /\ (b = false <-> t = [] \/ false_word t).
Proof.
  intros getenv vars cond x t Hg Hv Hc Hne Hx Ht Hn. exists (evaluate_text x). split.
  - unfold evaluate. destruct (decide (cond = [])) as [|_]; [contradiction|].
    rewrite (proj2 (interpolate_Ok getenv vars Hg Hv cond Hc x) Hx). reflexivity.
  - apply evaluate_text_truthy; assumption.
Qed.
Print Assumptions C07_truthiness.

(** No [when] means: run. *)
Theorem C07_empty_condition_runs : forall getenv vars, evaluate getenv vars [] = Ok true.
Proof. reflexivity. Qed.
Print Assumptions C07_empty_condition_runs.

(** Evaluation fails iff an unescaped reference is undefined, naming the leftmost. *)
Theorem C07_undefined_is_error :
  forall getenv vars cond e,
    evaluate getenv vars cond = Err e <->
    exists ps pre n post, reads cond ps /\ refs_of ps = pre ++ n :: post /\ undefined_ref vars n /\
      (forall m, m ∈ pre -> ~ undefined_ref vars m) /\ e = EVarNotFound n.
Proof.
  intros getenv vars cond e. rewrite <- (interpolate_Err getenv vars cond e). unfold evaluate.
  destruct (decide (cond = [])) as [->|_].
  - split; [discriminate|]. intros H. vm_compute in H. discriminate H.
  - destruct (interpolate getenv vars cond); split; congruence.
Qed.
Print Assumptions C07_undefined_is_error.

Example C07_examples :
  evaluate when_env when_vars (lit "${{ blank }}") = Ok false /\
  evaluate when_env when_vars (lit " FaLse ") = Ok false /\
  evaluate when_env when_vars (lit "${{ x }}") = Ok true /\
  evaluate when_env when_vars (lit "${{ undefined }}") = Err (EVarNotFound (lit "undefined")) /\
  (forall L R eq, ~ comparison (lit "FaLse") L R eq) /\ trimmed (lit " FaLse ") (lit "FaLse") /\ false_word (lit "FaLse").
Proof.
  repeat match goal with |- _ /\ _ => split end; try (vm_compute; reflexivity).
  - apply evaluate_comparison_None. vm_compute. reflexivity.
  - apply trimmed_trim_space. vm_compute. reflexivity.
  - apply fold_match_spec. vm_compute. reflexivity.
Qed.
