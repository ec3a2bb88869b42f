(** C02 and C04, continued: which references a text has, and blocks without variables. *)
From Verif Require Import Base Interp_Model Interp_Spec Interp_Proof Vars_Proof P_Interp.

(** The references found are those that are written, escaped or not; and a text is
    said to have one iff it has. *)
Theorem C02_references_found s n : n ∈ extract_refs s <-> exists a t b, s = a ++ t ++ b /\ ref_text t n.
Proof. apply scan_matches_elem. Qed.
Theorem C02_has_reference s : contains_ref s = true <-> exists a t n b, s = a ++ t ++ b /\ ref_text t n.
Proof.
  unfold contains_ref. destruct (extract_refs s) as [|n r] eqn:E; (split; [intros H|]).
  - discriminate H.
  - intros (a & t & n & b & H). assert (Hin : n ∈ extract_refs s) by (apply C02_references_found; eauto). rewrite E in Hin. inversion Hin.
  - assert (Hin : n ∈ extract_refs s) by (rewrite E; left). apply C02_references_found in Hin as (a & t & b & Hin). exists a, t, n, b. exact Hin.
  - reflexivity.
Qed.
Print Assumptions C02_references_found. Print Assumptions C02_has_reference.

(** With or without variables of its own, a block has the variables from outside that
    it does not set itself, and no others. *)
Theorem C04_outer_variables getenv own parent order m :
  (forall x, nul_free (getenv x)) -> all_nul_free (default ∅ own) -> all_nul_free (default ∅ parent) -> iteration_order (default ∅ own) order ->
  resolve_vars getenv own parent order = Ok m ->
  forall n, (default ∅ own : gmap str str) !! n = None -> m !! n = (default ∅ parent : gmap str str) !! n.
Proof.
  intros Hg Ho Hp Hor H n Hn. destruct own as [b|].
  - exact (proj2 (C04_resolved_values_are_fixed_point getenv b parent order m Hg Ho Hp Hor H) n Hn).
  - simpl in H. injection H as <-. reflexivity.
Qed.
Print Assumptions C04_outer_variables.

Example C04_outer_met : resolve_vars (fun _ => []) None (Some ex_parent) [] = Ok ex_parent /\
  contains_ref (lit "$${{ a }}") = true /\ contains_ref (lit "${{ a b }}") = false /\ extract_refs (lit "x${{a}}-$${{ env.B }}") = [lit "a"; lit "env.B"].
Proof. vm_compute. auto. Qed.
