(** Run items: what parseRunItem accepts, and as what. *)
From Verif Require Import Base Types_Model Include_Model Doc_Model Doc_Spec Doc_Proof.

(** ** Numbers *)
Lemma digit_spec c d : digit c = Some d <-> 48 <= code c <= 57 /\ d = (Z.of_nat (code c) - 48)%Z.
Proof.
  unfold digit. destruct (48 <=? code c) eqn:E1; destruct (code c <=? 57) eqn:E2; simpl;
    rewrite ?Nat.leb_le, ?Nat.leb_gt in *; split; try discriminate; try lia.
  - intros [= <-]. split; [lia|]. rewrite Nat2Z.inj_sub by lia. reflexivity.
  - intros [_ ->]. f_equal. rewrite Nat2Z.inj_sub by lia. reflexivity.
Qed.
Lemma digits_snoc acc s c : digits acc (s ++ [c]) = match digits acc s with None => None | Some z => match digit c with None => None | Some d => Some (z * 10 + d)%Z end end.
Proof. revert acc. induction s as [|x s IH]; intros acc; simpl; [destruct (digit c); reflexivity|]. destruct (digit x); [apply IH|reflexivity]. Qed.
Lemma decimal_digits s z : decimal s z <-> s <> [] /\ digits 0 s = Some z.
Proof.
  split.
  - induction 1 as [c Hc|s z c H [IH1 IH2] Hc].
    + split; [discriminate|]. simpl. rewrite (proj2 (digit_spec c _) (conj Hc eq_refl)). f_equal; lia.
    + split; [destruct s; discriminate|]. rewrite digits_snoc, IH2, (proj2 (digit_spec c _) (conj Hc eq_refl)). reflexivity.
  - revert z. induction s as [|c s IH] using rev_ind; intros z [H1 H2]; [contradiction|]. clear H1.
    rewrite digits_snoc in H2. destruct (digits 0 s) as [z'|] eqn:E; [|discriminate]. destruct (digit c) as [d|] eqn:Ed; [|discriminate].
    injection H2 as <-. apply digit_spec in Ed as [Hc ->]. destruct s as [|x s].
    + simpl in E. injection E as <-. simpl. apply (dec_one c Hc).
    + apply dec_more; [|exact Hc]. apply IH. split; [discriminate|reflexivity].
Qed.
Lemma decimal_pos s z : decimal s z -> (0 <= z)%Z.
Proof. induction 1; lia. Qed.
Lemma decimal_head s z : decimal s z -> exists c r, s = c :: r /\ 48 <= code c <= 57.
Proof.
  induction 1 as [c Hc|s z c H (x & r & -> & Hx) Hc]; [exists c, []; auto|]. exists x, (r ++ [c]). auto.
Qed.
Lemma in_int64_spec z : in_int64 z = true <-> (- 2 ^ 63 <= z < 2 ^ 63)%Z.
Proof. unfold in_int64. rewrite andb_true_iff, Z.leb_le, Z.ltb_lt. reflexivity. Qed.
Lemma atoi_spec s z : atoi s = Some z <-> integer s z.
Proof.
  assert (G : forall neg ds, match ds with [] => None | _ => match digits 0 ds with None => None | Some z0 =>
       let z' := if neg : bool then (- z0)%Z else z0 in if in_int64 z' then Some z' else None end end = Some z <->
     exists z0, decimal ds z0 /\ z = (if neg then - z0 else z0)%Z /\ (- 2 ^ 63 <= z < 2 ^ 63)%Z).
  { intros neg ds. split.
    - destruct ds as [|c ds]; [discriminate|]. destruct (digits 0 (c :: ds)) as [z0|] eqn:E; [|discriminate]. cbn zeta.
      destruct (in_int64 _) eqn:Ei; [|discriminate]. intros [= <-]. exists z0. split; [apply decimal_digits; split; [discriminate|exact E]|].
      split; [reflexivity|]. apply in_int64_spec. exact Ei.
    - intros (z0 & Hd & -> & Hr). apply decimal_digits in Hd as [Hn Hd]. destruct ds as [|c ds]; [contradiction|]. rewrite Hd. cbn zeta.
      rewrite (proj2 (in_int64_spec _) Hr). reflexivity. }
  assert (P : (exists z0, decimal s z0 /\ z = z0 /\ (- 2 ^ 63 <= z < 2 ^ 63)%Z) <-> decimal s z /\ (z < 2 ^ 63)%Z).
  { split; [intros (z0 & Hd & -> & Hr); split; [exact Hd|lia]|]. intros [Hd Hr]. pose proof (decimal_pos _ _ Hd). exists z. split; [exact Hd|lia]. }
  assert (N : forall c r, s = c :: r -> c <> "-"%char -> c <> "+"%char -> (integer s z <-> decimal s z /\ (z < 2 ^ 63)%Z)).
  { intros c r -> H1 H2. split; [|intros [? ?]; constructor; assumption]. intros H. inversion H; subst; [split; assumption|contradiction..]. }
  unfold atoi. destruct s as [|c r].
  { split; [discriminate|]. intros H. inversion H as [s z' Hd| |]; subst. apply decimal_head in Hd as (? & ? & ? & _). discriminate. }
  destruct (decide (c = "-"%char)) as [->|H1].
  { cbn zeta iota. rewrite (G true r). split.
    - intros (z0 & Hd & -> & Hr). apply int_minus; [exact Hd|lia].
    - intros H. inversion H as [s z' Hd| |s z' Hd Hz]; subst.
      + apply decimal_head in Hd as (? & ? & [= <- <-] & Hc). vm_compute in Hc. lia.
      + exists z'. pose proof (decimal_pos _ _ Hd). split; [exact Hd|]. split; [reflexivity|lia]. }
  destruct (decide (c = "+"%char)) as [->|H2].
  { cbn zeta iota. rewrite (G false r). split.
    - intros (z0 & Hd & -> & Hr). apply int_plus; [exact Hd|lia].
    - intros H. inversion H as [s z' Hd|s z' Hd Hz|]; subst.
      + apply decimal_head in Hd as (? & ? & [= <- <-] & Hc). vm_compute in Hc. lia.
      + exists z. pose proof (decimal_pos _ _ Hd). split; [exact Hd|]. split; [reflexivity|lia]. }
  rewrite (N c r eq_refl H1 H2), <- P, <- (G false (c :: r)).
  destruct c as [[] [] [] [] [] [] [] []]; try reflexivity; contradiction.
Qed.

(** ** Names *)
Lemma var_name_spec s : var_name s = true <-> name_ok s.
Proof.
  assert (W : forall c, word_start c = true <-> letter c).
  { intros c. unfold word_start, letter. rewrite !orb_true_iff, !andb_true_iff, !Nat.leb_le, Nat.eqb_eq. tauto. }
  assert (V : forall c, word_char c = true <-> letter c \/ 48 <= code c <= 57).
  { intros c. unfold word_char. rewrite orb_true_iff, W, andb_true_iff, !Nat.leb_le. tauto. }
  unfold var_name, name_ok. destruct s as [|c r]; [split; [discriminate|intros (? & ? & ? & _); discriminate]|].
  rewrite andb_true_iff, W, forallb_forall. split.
  - intros [H1 H2]. exists c, r. split; [reflexivity|]. split; [exact H1|]. apply Forall_forall. intros x Hx. apply V, H2, elem_of_list_In, Hx.
  - intros (? & ? & [= <- <-] & H1 & H2). split; [exact H1|]. intros x Hx. apply V. rewrite Forall_forall in H2. apply H2, elem_of_list_In, Hx.
Qed.

(** ** Prompts *)
Lemma both_ok a b : (both a b).1 = [] <-> a.1 = [] /\ b.1 = [].
Proof. unfold both. simpl. apply app_nil. Qed.
Definition agree (x : list derr * bool) : Prop := x.2 = true <-> x.1 = [].
Lemma both_agree a b : agree a -> agree b -> agree (both a b).
Proof. unfold agree, both. simpl. rewrite andb_true_iff, app_nil. tauto. Qed.
Lemma report_agree l w b e : agree (report l w b e).
Proof. unfold agree, report. destruct b; simpl; split; congruence. Qed.
Lemma report_ok l w b e : (report l w b e).1 = [] <-> b = false.
Proof. unfold report. destruct b; simpl; split; congruence. Qed.
Lemma agree_nil : agree ([], true).
Proof. split; reflexivity. Qed.
Lemma given_true s : given s = true <-> s <> [].
Proof. destruct s; simpl; split; congruence. Qed.
Lemma given_false s : given s = false <-> s = [].
Proof. destruct s; simpl; split; congruence. Qed.
Lemma non_empty_true l : non_empty l = true <-> l <> [].
Proof. destruct l; simpl; split; congruence. Qed.
Lemma non_empty_false l : non_empty l = false <-> l = [].
Proof. destruct l; simpl; split; congruence. Qed.
Lemma defaults_in_agree l w o d : agree (defaults_in l w o d).
Proof. induction d; simpl; [apply agree_nil|]. apply both_agree; [apply report_agree|assumption]. Qed.
Lemma defaults_in_ok l w o d : (defaults_in l w o d).1 = [] <-> Forall (fun x => x ∈ o) d.
Proof.
  induction d as [|x d IH]; [simpl; split; [constructor|reflexivity]|].
  change (defaults_in l w o (x :: d)) with (both (report l w (negb (bool_decide (x ∈ o))) (INotInOptions x)) (defaults_in l w o d)).
  rewrite both_ok, report_ok, IH, Forall_cons, negb_false_iff, bool_decide_eq_true. reflexivity.
Qed.

Section Prompt.
  Context (Y : yaml).
  Let re (s : str) : Prop := y_regexp Y s = true.

  Definition verdict (line : nat) (wrap : ierror -> derror) (pf : pfields) : list derr * bool :=
    both (both (both (validate_basics line wrap pf) (validate_options line wrap pf)) (validate_constraints Y line wrap pf)) (validate_type_specific line wrap pf).

  Lemma verdict_agree line wrap pf : agree (verdict line wrap pf).
  Proof.
    unfold verdict, validate_basics, validate_options, validate_constraints, validate_type_specific.
    repeat first [apply both_agree|apply report_agree|apply defaults_in_agree|apply agree_nil|case_match].
  Qed.

  Definition as_prompt (line : nat) (pf : pfields) (platforms : list str) (when : str) : prompt_run :=
    PromptRun line (pf_name pf) (pf_type pf) (pf_message pf) platforms (pf_dflt pf) (pf_defaults pf)
      (pf_options pf) (pf_placeholder pf) (pf_validate pf) (pf_min pf) (pf_max pf) (pf_confirm pf) when.

  Lemma type_spec t : valid_prompt_type t = true <-> one_of ["confirm"; "input"; "select"; "multiselect"; "password"; "number"] t.
  Proof. unfold valid_prompt_type, one_of. apply bool_decide_eq_true. Qed.
  Lemma requires_spec t : requires_options t = true <-> one_of ["select"; "multiselect"] t.
  Proof. unfold requires_options. rewrite orb_true_iff, !is_true, !one_of_cons, one_of_nil. tauto. Qed.

  Lemma verdict_ok line wrap pf platforms when : (verdict line wrap pf).1 = [] <-> prompt_ok re (as_prompt line pf platforms when).
  Proof.
    unfold verdict. rewrite !both_ok.
    unfold validate_basics. rewrite !both_ok, !report_ok, negb_false_iff, var_name_spec.
    assert (E2 : (match pf_type pf with [] => report line wrap true INoType | a :: l => report line wrap (negb (valid_prompt_type (a :: l))) (IType (a :: l)) end).1 = []
      <-> valid_prompt_type (pf_type pf) = true).
    { destruct (pf_type pf) as [|a l]; [split; discriminate|]. rewrite report_ok, negb_false_iff. reflexivity. }
    rewrite E2. clear E2.
    assert (E3 : match pf_message pf with [] => true | _ => false end = false <-> pf_message pf <> []) by (destruct (pf_message pf); split; congruence).
    rewrite E3. clear E3.
    unfold validate_options. rewrite !both_ok, !report_ok, andb_false_iff, negb_false_iff, non_empty_true.
    unfold validate_constraints. rewrite !both_ok, !report_ok, andb_false_iff, negb_false_iff, given_false.
    unfold validate_type_specific.
    split.
    - intros (((((Hn & Ht) & Hm) & ((Ho & Hd) & Hds)) & (Hmm & Hre)) & Hts). rewrite Ht in Hts. rewrite !both_ok, !report_ok in Hts.
      rewrite !andb_false_iff, !negb_false_iff, !non_empty_false, !given_false, !is_true in Hts.
      destruct Hts as ((((T1 & T2) & T3) & T4) & T5). rewrite requires_spec in T1.
      unfold as_prompt. constructor; cbn [p_prompt p_type p_message p_options p_default p_defaults p_min p_max p_validate p_confirm].
      + exact Hn.
      + apply type_spec. exact Ht.
      + exact Hm.
      + split; [intros H; destruct T1; [contradiction|assumption]|]. intros H. apply requires_spec in H. destruct Ho as [Ho|Ho]; [congruence|exact Ho].
      + intros H1 H2. rewrite (proj2 (is_true _ _) H1), (proj2 (given_true _) H2) in Hd. simpl in Hd.
        assert (H3 : pf_options pf <> []). { destruct Ho as [Ho|Ho]; [|exact Ho]. rewrite H1 in Ho. vm_compute in Ho. discriminate. }
        rewrite (proj2 (non_empty_true _) H3) in Hd. apply report_ok in Hd. apply negb_false_iff, bool_decide_eq_true in Hd. exact Hd.
      + intros H. destruct T2; [contradiction|assumption].
      + destruct T2 as [T2|T2]; [rewrite T2; constructor|].
        assert (H3 : pf_options pf <> []). { destruct Ho as [Ho|Ho]; [|exact Ho]. rewrite T2 in Ho. vm_compute in Ho. discriminate. }
        rewrite (proj2 (is_true _ _) T2), (proj2 (non_empty_true _) H3) in Hds. destruct (pf_defaults pf) as [|d ds]; [constructor|]. cbn [non_empty andb] in Hds.
        apply defaults_in_ok in Hds. exact Hds.
      + intros lo hi H1 H2. rewrite H1, H2 in Hmm. apply report_ok in Hmm. apply Z.ltb_ge in Hmm. exact Hmm.
      + intros H. split; [destruct T3; [contradiction|assumption]|]. destruct Hre; [contradiction|assumption].
      + intros [b Hb]. rewrite Hb in T4. destruct T4 as [T4|T4]; [discriminate|exact T4].
      + intros H1 H2. destruct T5 as [[T5|T5]|T5]; [apply is_false in T5; contradiction|contradiction|].
        destruct (atoi (pf_dflt pf)) as [z|] eqn:E; [|discriminate]. exists z. apply atoi_spec. exact E.
    - unfold as_prompt. intros [Hn Ht Hm Ho Hd Hds Hdi Hr Hv Hc Hnum]. cbn [p_prompt p_type p_message p_options p_default p_defaults p_min p_max p_validate p_confirm] in *.
      split; [split; [split|]|].
      + split; [split; [exact Hn|apply type_spec; exact Ht]|exact Hm].
      + split; [split|].
        * destruct (requires_options (pf_type pf)) eqn:E; [|auto]. right. apply Ho, requires_spec. exact E.
        * destruct (is (pf_type pf) "select" && given (pf_dflt pf) && non_empty (pf_options pf)) eqn:E; [|reflexivity].
          rewrite !andb_true_iff, is_true, given_true in E. destruct E as [[E1 E2] _]. apply report_ok, negb_false_iff, bool_decide_eq_true. auto.
        * destruct (_ && _ && _); [|reflexivity]. apply defaults_in_ok. exact Hdi.
      + split.
        * destruct (pf_min pf) as [lo|]; [|reflexivity]. destruct (pf_max pf) as [hi|]; [|reflexivity]. apply report_ok, Z.ltb_ge. exact (Hr lo hi eq_refl eq_refl).
        * destruct (pf_validate pf) as [|a v]; [auto|]. right. apply Hv. discriminate.
      + rewrite (proj2 (type_spec _) Ht). rewrite !both_ok, !report_ok.
        rewrite !andb_false_iff, !negb_false_iff, !non_empty_false, !given_false, !is_true, requires_spec.
        split; [split; [split; [split|]|]|].
        * destruct (pf_options pf) as [|o os]; [auto|]. right. apply Ho. discriminate.
        * destruct (pf_defaults pf) as [|o os]; [auto|]. right. apply Hds. discriminate.
        * destruct (pf_validate pf) as [|o os]; [auto|]. right. apply Hv. discriminate.
        * destruct (pf_confirm pf) as [b|]; [|auto]. right. apply Hc. eauto.
        * destruct (is (pf_type pf) "number") eqn:E; [|auto]. apply is_true in E. destruct (pf_dflt pf) as [|d ds] eqn:Ed; [auto|].
          right. destruct Hnum as [z Hz]; [exact E|discriminate|]. apply atoi_spec in Hz. rewrite Hz. reflexivity.
  Qed.

  Lemma validate_prompt_run_spec line wrap pf platforms when :
    ((validate_prompt_run Y line wrap pf platforms when).1 = [] <-> prompt_ok re (as_prompt line pf platforms when)) /\
    (validate_prompt_run Y line wrap pf platforms when).2 =
      match (validate_prompt_run Y line wrap pf platforms when).1 with [] => Some (RPrompt (as_prompt line pf platforms when)) | _ => None end.
  Proof.
    unfold validate_prompt_run. fold (verdict line wrap pf). pose proof (verdict_agree line wrap pf) as Ha. pose proof (verdict_ok line wrap pf platforms when) as Hv.
    destruct (verdict line wrap pf) as [es ok]. unfold agree in Ha. cbn [fst snd] in *. split; [exact Hv|].
    destruct es, ok; try reflexivity; [pose proof (proj2 Ha eq_refl)|pose proof (proj1 Ha eq_refl)]; discriminate.
  Qed.
End Prompt.

Section Plain.
  Context (Y : yaml).
  Notation becomes := (becomes Y).

  (** What is to be shown of the result of parsing a run item: it is the item the
      node stands for; and there is no item exactly when errors are reported. *)
  Definition exact_item (n : node) (r : list derr * option run_item) : Prop :=
    (forall it, becomes n it <-> r.2 = Some it) /\ (r.1 = [] <-> is_Some r.2).

  Lemma run_key_flag wrap rf k v :
    ((run_key Y wrap rf k v).1 <> [] -> rf_bad (run_key Y wrap rf k v).2 = true) /\
    (rf_bad rf = true -> rf_bad (run_key Y wrap rf k v).2 = true).
  Proof.
    unfold run_key, parse_prompt_key, flag_rf, parse_env_map.
    repeat match goal with |- context [if is ?a ?b then _ else _] => destruct (is a b) end; try (split; [intros H; contradiction|exact id]).
    - destruct v; split; try (intros H; contradiction); intros H; try reflexivity; exact H.
    - destruct (parse_str_map_spec DEnvMap DEnvValue v (rf_env rf)) as (_ & H & _). destruct (parse_str_map _ _ _ _) as [[es []] m]; cbn [fst snd] in *;
        split; intros E; try reflexivity; try exact E. destruct (E (proj1 H eq_refl)).
    - destruct (parse_bool_spec Y v (rf_silent rf)) as (_ & H & _). destruct (parse_bool _ _ _) as [[es []] m]; cbn [fst snd] in *;
        split; intros E; try reflexivity; try exact E. destruct (E (proj1 H eq_refl)).
    - destruct (parse_bool_spec Y v (rf_output rf)) as (_ & H & _). destruct (parse_bool _ _ _) as [[es []] m]; cbn [fst snd] in *;
        split; intros E; try reflexivity; try exact E. destruct (E (proj1 H eq_refl)).
    - destruct (parse_platforms_spec Y (line_of k) wrap v) as (_ & H & _). destruct (parse_platforms _ _ _ _) as [[es []] m]; cbn [fst snd] in *;
        split; intros E; try reflexivity; try exact E. destruct (E (proj1 H eq_refl)).
    - destruct (y_strs Y v); cbn [fst snd]; split; intros E; try reflexivity; try contradiction; exact E.
    - destruct (y_strs Y v); cbn [fst snd]; split; intros E; try reflexivity; try contradiction; exact E.
    - destruct (y_int Y v); cbn [fst snd]; split; intros E; try reflexivity; try contradiction; exact E.
    - destruct (y_int Y v); cbn [fst snd]; split; intros E; try reflexivity; try contradiction; exact E.
    - destruct (parse_bool_spec Y v (pf_confirm (rf_pf rf))) as (_ & H & _). destruct (parse_bool _ _ _) as [[es []] m]; cbn [fst snd] in *;
        split; intros E; try reflexivity; try exact E. destruct (E (proj1 H eq_refl)).
  Qed.
  Lemma run_fields_flag wrap c rf :
    ((run_fields Y wrap c rf).1 <> [] -> rf_bad (run_fields Y wrap c rf).2 = true) /\
    (rf_bad rf = true -> rf_bad (run_fields Y wrap c rf).2 = true).
  Proof.
    rewrite run_fields_loop. revert rf. induction c as [|[k v] r IH]; intros rf; [split; [intros H; contradiction|exact id]|].
    rewrite loop_cons. cbn [fst snd]. destruct (run_key_flag wrap rf k v) as [K1 K2]. destruct (IH (run_key Y wrap rf k v).2) as [I1 I2]. split.
    - intros H. destruct (run_key Y wrap rf k v).1 eqn:E; [apply I1; exact H|]. apply I2, K1. discriminate.
    - auto.
  Qed.

  Lemma count_given a b c d :
    count_run_types a b c d = (if given a then 1 else 0) + (if given b then 1 else 0) + (if given c then 1 else 0) + (if given d then 1 else 0).
  Proof. destruct a, b, c, d; reflexivity. Qed.

  Definition kind_flags (c : list (node * node)) (k : string) : Prop :=
    given (text c "cmd") = String.eqb k "cmd" /\ given (text c "task") = String.eqb k "task" /\
    given (text c "log") = String.eqb k "log" /\ given (text c "prompt") = String.eqb k "prompt".
  Lemma kind_iff c k : the_kind Y c k <-> ~ has c "parallel" /\ Forall (fun kv => entry_ok Y (value_of kv.1) kv.2) c /\ kind_flags c k.
  Proof.
    unfold the_kind, kind_flags.
    assert (B : forall k', (text c k' <> [] <-> k' = k) <-> given (text c k') = String.eqb k k').
    { intros k'. rewrite <- given_true. destruct (String.eqb k k') eqn:E.
      - apply String.eqb_eq in E. subst. tauto.
      - apply String.eqb_neq in E. destruct (given (text c k')); split; try congruence; intros H; [|split; congruence].
        destruct E. symmetry. apply H. reflexivity. }
    split; intros (H1 & H2 & H3); (split; [exact H1|]; split; [exact H2|]).
    - rewrite <- !B. split; [|split; [|split]]; apply H3; simpl; auto 10.
    - destruct H3 as (A1 & A2 & A3 & A4). rewrite <- B in A1, A2, A3, A4. intros k' [<-|[<-|[<-|[<-|[]]]]]; assumption.
  Qed.

  Lemma level_spec s : valid_level s = true <-> one_of ["debug"; "info"; "warn"; "error"] s.
  Proof. unfold valid_level, one_of. apply bool_decide_eq_true. Qed.

  Lemma has_field c k : field c k <> None -> has c k.
  Proof.
    unfold field, field_at, under. intros H. destruct (last _) as [v|] eqn:E; [|contradiction]. apply last_Some_elem_of in E.
    apply elem_of_list_fmap in E as (kv & _ & Hkv). apply elem_of_list_filter in Hkv as [H1 H2]. exists kv. auto.
  Qed.

  Lemma plain_item_spec line wrap c : ~ has c "parallel" -> exact_item (YMap line c) (plain_item Y line wrap c).
  Proof.
    intros Hp. unfold plain_item.
    pose proof (loop_ok (run_key Y wrap) (fun k v => entry_ok Y (value_of k) v) c no_rf (run_key_ok Y wrap)) as Hok. rewrite <- run_fields_loop in Hok.
    destruct (run_fields_flag wrap c no_rf) as [Hf _]. pose proof (run_fields_reads Y wrap c) as Hr.
    destruct (run_fields Y wrap c no_rf) as [es rf]. cbn [fst snd] in *.
    destruct es as [|e es].
    2:{ assert (Hb : rf_bad rf = true) by (apply Hf; discriminate). rewrite Hb.
      assert (G : forall it, ~ becomes (YMap line c) it).
      { intros it Hit. enough (e :: es = []) by discriminate. apply Hok.
        inversion Hit as [? ? (_ & H & _)|? ? (_ & H & _)|? ? (_ & H & _)|? ? ? (_ & H & _)|? ? ? ? ? ? H]; subst; try exact H.
        destruct Hp. apply has_field. congruence. }
      destruct (1 <? _); [|destruct (_ =? 0)]; (split; [intros it; split; [intros H; destruct (G it H)|discriminate]|]); simpl;
        (split; [intros H; discriminate H|intros [? ?]; discriminate]). }
    assert (Hc : Forall (fun kv => entry_ok Y (value_of kv.1) kv.2) c) by (apply Hok; reflexivity).
    rewrite (Hr eq_refl). clear Hr Hf Hok rf. unfold reads. cbn [rf_cmd rf_task rf_log rf_dir rf_when rf_env rf_platforms rf_level rf_silent rf_output rf_bad rf_pf pf_name].
    rewrite count_given.
    assert (Inv : forall it, becomes (YMap line c) it -> exists k, In k ["cmd"; "task"; "log"; "prompt"]%string /\ kind_flags c k).
    { intros it Hit. inversion Hit as [? ? H|? ? H|? ? H|? ? ? H|? ? ? ? ? ? H]; subst.
      1-4: apply kind_iff in H as (_ & _ & H); eexists; (split; [|exact H]); simpl; auto 10.
      destruct Hp. apply has_field. congruence. }
    assert (Bad : (forall k, In k ["cmd"; "task"; "log"; "prompt"]%string -> ~ kind_flags c k) -> forall e, exact_item (YMap line c) ([] ++ [e], None)).
    { intros H e. split; [|simpl; split; [discriminate|intros [? ?]; discriminate]]. intros it. simpl. split; [|discriminate].
      intros Hit. destruct (Inv it Hit) as (k & Hk & Hk'). destruct (H k Hk Hk'). }
    assert (Kind : forall k, kind_flags c k -> the_kind Y c k) by (intros k Hk; apply kind_iff; auto).
    assert (Same : forall it, becomes (YMap line c) it -> forall k, In k ["cmd"; "task"; "log"; "prompt"]%string -> kind_flags c k ->
       match it with RCmd _ => k = "cmd"%string | RTask _ => k = "task"%string | RLog _ => k = "log"%string | RPrompt _ => k = "prompt"%string | RPar _ _ => False end).
    { intros it Hit k Hk (F1 & F2 & F3 & F4). inversion Hit as [? ? H|? ? H|? ? H|? ? ? H|? ? ? ? ? ? H]; subst.
      1-4: apply kind_iff in H as (_ & _ & (G1 & G2 & G3 & G4)); rewrite G1, G2, G3, G4 in *; destruct Hk as [<-|[<-|[<-|[<-|[]]]]]; try reflexivity; discriminate.
      destruct Hp. apply has_field. congruence. }
    destruct (given (text c "cmd")) eqn:G1, (given (text c "task")) eqn:G2, (given (text c "log")) eqn:G3, (given (text c "prompt")) eqn:G4;
      cbn [Nat.ltb Nat.leb Nat.add Nat.eqb];
      try (apply Bad; intros k [<-|[<-|[<-|[<-|[]]]]] (F1 & F2 & F3 & F4); rewrite G1 in F1; rewrite G2 in F2; rewrite G3 in F3; rewrite G4 in F4;
        first [discriminate F1|discriminate F2|discriminate F3|discriminate F4]).
    - assert (Hk : kind_flags c "cmd") by (repeat split; assumption). split; [|simpl; split; [eauto|reflexivity]]. intros it. split.
      + intros Hit. pose proof (Same it Hit "cmd"%string ltac:(simpl; auto 10) Hk) as E. inversion Hit; subst; try discriminate E; try destruct E. reflexivity.
      + intros [= <-]. apply B_cmd, Kind, Hk.
    - assert (Hk : kind_flags c "task") by (repeat split; assumption). split; [|simpl; split; [eauto|reflexivity]]. intros it. split.
      + intros Hit. pose proof (Same it Hit "task"%string ltac:(simpl; auto 10) Hk) as E. inversion Hit; subst; try discriminate E; try destruct E. reflexivity.
      + intros [= <-]. apply B_task, Kind, Hk.
    - assert (Hk : kind_flags c "log") by (repeat split; assumption). unfold build_log_run. fold (or_else (text c "level") "info").
      change (match text c "level" with [] => lit "info" | _ => text c "level" end) with (or_else (text c "level") "info").
      destruct (valid_level (or_else (text c "level") "info")) eqn:El; cbn [app].
      + apply level_spec in El. split; [|simpl; split; [eauto|reflexivity]]. intros it. split.
        * intros Hit. pose proof (Same it Hit "log"%string ltac:(simpl; auto 10) Hk) as E. inversion Hit; subst; try discriminate E; try destruct E. reflexivity.
        * intros [= <-]. apply B_log; [apply Kind, Hk|exact El].
      + split; [|simpl; split; [discriminate|intros [? ?]; discriminate]]. intros it. split; [|discriminate].
        intros Hit. pose proof (Same it Hit "log"%string ltac:(simpl; auto 10) Hk) as E. inversion Hit as [| |? ? ? Hl| |]; subst; try discriminate E; try destruct E.
        apply level_spec in Hl. congruence.
    - assert (Hk : kind_flags c "prompt") by (repeat split; assumption).
      match goal with |- context [validate_prompt_run Y line wrap ?pf ?p ?w] => destruct (validate_prompt_run_spec Y line wrap pf p w) as [V1 V2] end.
      destruct (validate_prompt_run _ _ _ _ _ _) as [es it]. cbn [fst snd app] in *. subst it. unfold as_prompt in *.
      cbn [pf_name pf_type pf_message pf_dflt pf_placeholder pf_validate pf_options pf_defaults pf_min pf_max pf_confirm] in *. split.
      + intros it. split.
        * intros Hit. pose proof (Same it Hit "prompt"%string ltac:(simpl; auto 10) Hk) as E. inversion Hit as [| | |? ? ? ? Hpr Hwf|]; subst; try discriminate E; try destruct E.
          rewrite (proj2 V1 Hwf). reflexivity.
        * destruct es as [|e es]; [|discriminate]. cbn [snd]. intros [= <-]. eapply B_prompt; [apply Kind, Hk|reflexivity|]. apply V1. reflexivity.
      + cbn [fst snd]. destruct es as [|e es]; [split; [eauto|reflexivity]|]. split; [discriminate|intros [? ?]; discriminate].
  Qed.
End Plain.
