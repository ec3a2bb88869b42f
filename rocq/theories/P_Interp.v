(** Properties C01, C02, C04, C05: interpolation and variable resolution. *)
From Verif Require Import Base Interp_Model Interp_Spec Interp_Proof Vars_Proof Vars_Errors.

(** * C01 *)

(** Interpolate succeeds with [out] exactly when [out] is the one-pass value of
    the template. *)
Theorem C01_interpolate_is_one_pass :
  forall (getenv : str -> str) (vars : gmap str str) (input out : str),
    (forall x, nul_free (getenv x)) -> all_nul_free vars -> nul_free input ->
    interpolate getenv vars input = Ok out <-> template_value getenv (in_map vars) input out.
Proof. intros. apply interpolate_Ok; assumption. Qed.
Print Assumptions C01_interpolate_is_one_pass.

(** Reading a template is total and unambiguous, so the specification itself
    determines at most one output. *)
Theorem C01_reading_is_total_and_unambiguous :
  forall s, exists ps, reads s ps /\ forall ps', reads s ps' -> ps' = ps.
Proof. intros s. destruct (reads_total s) as [ps H]. exists ps. split; [exact H|]. intros ps' H'. exact (reads_fun _ _ _ H' H). Qed.
Print Assumptions C01_reading_is_total_and_unambiguous.

(** Text without [${{] is never changed. *)
Theorem C01_plain_text_unchanged :
  forall (getenv : str -> str) (vars : gmap str str) (s : str),
    (forall x, nul_free (getenv x)) -> all_nul_free vars -> nul_free s ->
    (forall a b, s <> a ++ lit "${{" ++ b) -> interpolate getenv vars s = Ok s.
Proof. intros. apply plain_text; assumption. Qed.
Print Assumptions C01_plain_text_unchanged.

Definition ex_env (x : str) : str := if bool_decide (x = lit "HOME") then lit "/root" else [].
Definition ex_vars : gmap str str := {[ lit "x" := lit "${{ y }}"; lit "a.b" := lit "v" ]}.

Example C01_example :
  interpolate ex_env ex_vars (lit "<${{ x }}|$${{ x }}|${{a.b}}|${{ env.HOME }}|${{ 1 }}|$$${{>") =
  Ok (lit "<${{ y }}|${{ x }}|v|/root|${{ 1 }}|$${{>").
Proof. vm_compute. reflexivity. Qed.

Lemma ex_env_nul_free : forall x, nul_free (ex_env x).
Proof.
  intros x. unfold ex_env. case_bool_decide; [|intros H'; inversion H'].
  apply (bool_decide_unpack (nul_free _)). vm_compute. exact I.
Qed.
Lemma ex_vars_nul_free : all_nul_free ex_vars.
Proof.
  intros n v H. unfold ex_vars in H. apply lookup_insert_Some in H as [[_ <-]|[_ H]].
  - apply (bool_decide_unpack (nul_free _)). vm_compute. exact I.
  - apply lookup_singleton_Some in H as [_ <-]. apply (bool_decide_unpack (nul_free _)). vm_compute. exact I.
Qed.
Example C01_hypotheses : (forall x, nul_free (ex_env x)) /\ all_nul_free ex_vars /\ nul_free (lit "<${{ x }}>").
Proof.
  split; [exact ex_env_nul_free|]. split; [exact ex_vars_nul_free|].
  apply (bool_decide_unpack (nul_free _)). vm_compute. exact I.
Qed.

(** Without the NUL-free hypothesis the property is false: the in-band
    placeholder is rewritten (finding F5). The template below reads as a
    sequence of ordinary bytes, so its one-pass value is itself. *)
Theorem C01_nul_placeholder_refuted :
  exists (s : str), interpolate (fun _ => []) ∅ s = Ok (lit "${{") /\ ~ template_value (fun _ => []) (in_map ∅) s (lit "${{").
Proof.
  exists placeholder. split; [vm_compute; reflexivity|].
  intros (ps & Hps & Ho).
  assert (Hb : forall u, "$"%char ∉ u -> forall ps o, reads u ps -> expands (fun _ => []) (in_map ∅) ps o -> o = u).
  { intros u Hu ps' o Hr. revert o. induction Hr as [|s ps' Hr IH|t n s ps' Ht Hr IH|c s ps' He Hn Hr IH]; intros o Hexp.
    - inversion Hexp; reflexivity.
    - exfalso. apply Hu. apply elem_of_app. left. left.
    - exfalso. apply Hu. destruct (ref_text_cons _ _ Ht) as (w & -> & _). left.
    - rewrite not_elem_of_cons in Hu. inversion Hexp; subst. f_equal. apply IH; tauto. }
  specialize (Hb placeholder). assert (Hd : "$"%char ∉ placeholder) by (apply (bool_decide_unpack _); vm_compute; exact I).
  specialize (Hb Hd _ _ Hps Ho). discriminate Hb.
Qed.
Print Assumptions C01_nul_placeholder_refuted.

(** * C02 *)

(** Interpolate fails iff an unescaped reference is undefined; the error names the
    leftmost undefined one. No restriction on bytes. *)
Theorem C02_error_is_leftmost_undefined :
  forall (getenv : str -> str) (vars : gmap str str) (input : str) (e : ierr),
    interpolate getenv vars input = Err e <->
    exists ps pre n post, reads input ps /\ refs_of ps = pre ++ n :: post /\ undefined_ref vars n /\
      (forall m, m ∈ pre -> ~ undefined_ref vars m) /\ e = EVarNotFound n.
Proof. exact interpolate_Err. Qed.
Print Assumptions C02_error_is_leftmost_undefined.

Example C02_example :
  interpolate ex_env ex_vars (lit "$${{ no }} ${{ env.NO }} ${{ x }} ${{ u1 }} ${{ u2 }}") = Err (EVarNotFound (lit "u1")).
Proof. vm_compute. reflexivity. Qed.

(** * C04 *)

(** Success is exactly: no variable mentions itself (escaped or not), every
    block variable has a value; and then the result is the map of all values. *)
Theorem C04_resolve_exact :
  forall (getenv : str -> str) (block : gmap str str) (parent : option (gmap str str)) (order : list str) (m : gmap str str),
    (forall x, nul_free (getenv x)) -> all_nul_free block -> all_nul_free (default ∅ parent) ->
    iteration_order block order ->
    resolve_vars getenv (Some block) parent order = Ok m <->
    mention_acyclic block /\ (forall n, is_Some (block !! n) -> exists v, Val getenv block (default ∅ parent) n v) /\
    (forall n v, m !! n = Some v <-> Val getenv block (default ∅ parent) n v).
Proof. exact resolve_vars_iff. Qed.
Print Assumptions C04_resolve_exact.

(** The result solves the equations given by the templates, and variables
    outside the block keep their parent value. *)
Theorem C04_resolved_values_are_fixed_point :
  forall getenv block parent order m,
    (forall x, nul_free (getenv x)) -> all_nul_free block -> all_nul_free (default ∅ parent) ->
    iteration_order block order ->
    resolve_vars getenv (Some block) parent order = Ok m ->
    (forall n raw, block !! n = Some raw -> exists v, m !! n = Some v /\ template_value getenv (in_map m) raw v) /\
    (forall n, block !! n = None -> m !! n = default ∅ parent !! n).
Proof. exact resolve_vars_fixpoint. Qed.
Print Assumptions C04_resolved_values_are_fixed_point.

(** Map iteration order does not matter. *)
Theorem C04_order_independent :
  forall getenv block parent o1 o2,
    (forall x, nul_free (getenv x)) -> all_nul_free block -> all_nul_free (default ∅ parent) ->
    iteration_order block o1 -> iteration_order block o2 ->
    forall m, resolve_vars getenv (Some block) parent o1 = Ok m -> resolve_vars getenv (Some block) parent o2 = Ok m.
Proof. exact resolve_vars_order. Qed.
Print Assumptions C04_order_independent.

Definition ex_block : gmap str str :=
  <[lit "a" := lit "${{ b }}-${{ c }}"]> (<[lit "b" := lit "B${{ p }}"]> {[ lit "c" := lit "${{ b }}$${{ z }}" ]}).
Definition ex_parent : gmap str str := {[ lit "p" := lit "1"; lit "b" := lit "shadowed" ]}.

Example C04_example :
  match resolve_vars ex_env (Some ex_block) (Some ex_parent) [lit "a"; lit "b"; lit "c"] with
  | Ok m => bool_decide (m = <[lit "a" := lit "B1-B1${{ z }}"]> (<[lit "b" := lit "B1"]>
                        (<[lit "c" := lit "B1${{ z }}"]> {[ lit "p" := lit "1" ]})))
  | Err _ => false
  end = true.
Proof. vm_compute. reflexivity. Qed.
Example C04_order_example : iteration_order ex_block [lit "a"; lit "b"; lit "c"].
Proof.
  unfold iteration_order. apply NoDup_Permutation.
  - apply (bool_decide_unpack _). vm_compute. exact I.
  - apply NoDup_fst_map_to_list.
  - intros x. split.
    + intros Hx. apply elem_of_list_fmap.
      assert (is_Some (ex_block !! x)) as [v Hv].
      { repeat (apply elem_of_cons in Hx as [->|Hx]; [vm_compute; eexists; reflexivity|]). inversion Hx. }
      exists (x, v). split; [reflexivity|]. apply elem_of_map_to_list. exact Hv.
    + intros Hx. apply elem_of_list_fmap in Hx as ([k v] & -> & Hkv). apply elem_of_map_to_list in Hkv. simpl.
      unfold ex_block in Hkv.
      apply lookup_insert_Some in Hkv as [[<- _]|[_ Hkv]]; [apply (bool_decide_unpack _); vm_compute; exact I|].
      apply lookup_insert_Some in Hkv as [[<- _]|[_ Hkv]]; [apply (bool_decide_unpack _); vm_compute; exact I|].
      apply lookup_singleton_Some in Hkv as [<- _]. apply (bool_decide_unpack _); vm_compute; exact I.
Qed.

(** * C05 *)

(** Resolution terminates (the recursion bound is never hit); a reported cycle is a
    real one (each name mentions the next, the last closes the chain); a reported
    undefined name is referenced, unescaped, in the block and defined nowhere. *)
Theorem C05_errors_are_genuine :
  forall getenv block parent order e,
    iteration_order block order ->
    resolve_vars getenv (Some block) parent order = Err e ->
    match e with
    | EFuel => False
    | EVarCycle c => closes (mentions block) c
    | EVarNotFound m => undefined_in_block block (default ∅ parent) m
    end.
Proof. intros getenv block parent order e Ho H. eapply vars_error; [apply iteration_order_elem; exact Ho|exact H]. Qed.
Print Assumptions C05_errors_are_genuine.

(** Failure happens iff there is a mention cycle or a valueless variable. *)
Theorem C05_fails_iff_cycle_or_undefined :
  forall getenv block parent order,
    (forall x, nul_free (getenv x)) -> all_nul_free block -> all_nul_free (default ∅ parent) ->
    iteration_order block order ->
    (exists e, resolve_vars getenv (Some block) parent order = Err e) <->
    ~ (mention_acyclic block /\ forall n, is_Some (block !! n) -> exists v, Val getenv block (default ∅ parent) n v).
Proof.
  intros getenv block parent order H1 H2 H3 Ho. split.
  - intros [e He] [Hac Hall]. simpl in He. apply resolve_vars_in_err in He; auto; [|apply iteration_order_elem; exact Ho].
    eapply err_not_both; eassumption.
  - intros Hn. destruct (resolve_vars getenv (Some block) parent order) as [m|e] eqn:E; [|eauto].
    exfalso. apply Hn. apply resolve_vars_iff in E as (Hac & Hall & _); auto.
Qed.
Print Assumptions C05_fails_iff_cycle_or_undefined.

(** The full property also says that escaped references do not count. That is
    false of the code (finding F3): [a: $${{ a }}] has a value but is reported as a
    cycle. *)
Theorem C05_escaped_reference_refuted :
  exists block order e, iteration_order block order /\
    Val (fun _ => []) block ∅ (lit "a") (lit "${{ a }}") /\
    (forall n, is_Some (block !! n) -> n = lit "a") /\
    resolve_vars (fun _ => []) (Some block) None order = Err e.
Proof.
  exists {[ lit "a" := lit "$${{ a }}" ]}, [lit "a"]. eexists. split; [|split; [|split]].
  - unfold iteration_order. rewrite map_to_list_singleton. reflexivity.
  - eapply Val_block with (ps := PEsc :: map PChr (lit " a }}")); [apply lookup_singleton| |].
    + change (lit "$${{ a }}") with (lit "$${{" ++ lit " a }}"). constructor.
      assert (H : forall u, "$"%char ∉ u -> reads u (map PChr u)).
      { intros u; induction u as [|c u IH]; intros Hu; [constructor|]. rewrite not_elem_of_cons in Hu. destruct Hu as [Hc Hu].
        constructor; [| |exact (IH Hu)].
        - intros [r E]. injection E as E _. congruence.
        - intros (t & n & r & Ht & E). destruct (ref_text_cons _ _ Ht) as (w & -> & _). injection E as E _. congruence. }
      apply H. apply (bool_decide_unpack _). vm_compute. exact I.
    + change (lit "${{ a }}") with (lit "${{" ++ lit " a }}"). constructor. repeat constructor.
  - intros n [v Hn]. apply lookup_singleton_Some in Hn as [<- _]. reflexivity.
  - vm_compute. reflexivity.
Qed.
Print Assumptions C05_escaped_reference_refuted.

Example C05_cycle_example :
  resolve_vars ex_env (Some (<[lit "a" := lit "${{ b }}"]> {[ lit "b" := lit "x${{ a }}" ]})) None [lit "a"; lit "b"] =
  Err (EVarCycle [lit "a"; lit "b"; lit "a"]).
Proof. vm_compute. reflexivity. Qed.
Example C05_undefined_example :
  resolve_vars ex_env (Some {[ lit "a" := lit "${{ nope }}" ]}) None [lit "a"] = Err (EVarNotFound (lit "nope")).
Proof. vm_compute. reflexivity. Qed.
