(** Theorems about prompts: C52, C53, C64. *)
From Verif Require Import Base Path_Model Types_Model Doc_Model Doc_Spec Doc_Item Cli_Tree Prompt_Model.
From Verif Require Interp_Model Run_Model P_Doc.

(** ** Specification *)

(** Equal up to the case of ASCII letters, the second text in lower case. *)
Definition same_letter (c d : ascii) : Prop := c = d \/ (65 <= code c <= 90 /\ code d = code c + 32).
Definition spelled (s w : str) : Prop := Forall2 same_letter s w.
(** What we assume of [strings.ToLower]: only these spellings give one of the four
    words; no other letter of Unicode has t, r, u, e, y or s as its lower case. *)
Definition lower_ok (L : prompt_lib) : Prop :=
  forall s w, one_of ["true"; "yes"; "y"; "1"] w -> pl_lower L s = w <-> spelled s w.
Definition means_yes (s : str) : Prop := exists w, one_of ["true"; "yes"; "y"; "1"] w /\ spelled s w.

(** Without a terminal: the value a prompt declares. *)
Inductive declared (p : prompt_run) : str -> Prop :=
| declared_yes : p_type p = lit "confirm" -> p_default p <> [] -> means_yes (p_default p) -> declared p (lit "true")
| declared_no : p_type p = lit "confirm" -> p_default p <> [] -> ~ means_yes (p_default p) -> declared p (lit "false")
| declared_text : one_of ["input"; "select"; "number"] (p_type p) -> p_default p <> [] -> declared p (p_default p)
| declared_list : p_type p = lit "multiselect" -> p_defaults p <> [] -> declared p (join_with (lit ",") (p_defaults p)).

(** Within the limits of the prompt. *)
Definition within (p : prompt_run) (n : Z) : Prop :=
  (forall lo, p_min p = Some lo -> (lo <= n)%Z) /\ (forall hi, p_max p = Some hi -> (n <= hi)%Z).

(** An answer that keeps what the prompt asks for. *)
Record keeps (L : prompt_lib) (p : prompt_run) (s : str) : Prop := {
  k_confirm : p_type p = lit "confirm" -> s = lit "true" \/ s = lit "false";
  k_input : p_type p = lit "input" -> p_validate p <> [] -> pl_matches L (p_validate p) s = true;
  k_select : p_type p = lit "select" -> s ∈ p_options p;
  k_multi : p_type p = lit "multiselect" -> exists l, s = join_with (lit ",") l /\ Forall (fun x => x ∈ p_options p) l /\ within p (Z.of_nat (length l));
  k_number : p_type p = lit "number" -> exists z, integer s z /\ within p z }.

Definition known_type (p : prompt_run) : Prop := one_of ["confirm"; "input"; "select"; "multiselect"; "password"; "number"] (p_type p).

(** ** Proofs *)
Lemma in_limits_spec p n : in_limits p n = true <-> within p n.
Proof.
  unfold in_limits, within. rewrite andb_true_iff. f_equiv.
  - destruct (p_min p) as [lo|]; [|split; [discriminate 2|reflexivity]]. rewrite negb_true_iff, bool_decide_eq_false. split; [intros H x [= <-]; lia|intros H; specialize (H _ eq_refl); lia].
  - destruct (p_max p) as [hi|]; [|split; [discriminate 2|reflexivity]]. rewrite negb_true_iff, bool_decide_eq_false. split; [intros H x [= <-]; lia|intros H; specialize (H _ eq_refl); lia].
Qed.

Lemma normalize_spec L s : lower_ok L -> (means_yes s /\ normalize_confirm L s = lit "true") \/ (~ means_yes s /\ normalize_confirm L s = lit "false").
Proof.
  intros HL. unfold normalize_confirm. destruct (bool_decide _) eqn:E.
  - apply bool_decide_eq_true in E. left. split; [|reflexivity]. exists (pl_lower L s). split; [exact E|]. apply HL; [exact E|reflexivity].
  - apply bool_decide_eq_false in E. right. split; [|reflexivity]. intros (w & Hw & Hs). apply E. apply (HL s w Hw) in Hs. rewrite Hs. exact Hw.
Qed.

Ltac on_type := repeat match goal with |- context [bool_decide ?P] => destruct (decide P) as [?|?]; [rewrite (bool_decide_eq_true_2 P) by assumption|rewrite (bool_decide_eq_false_2 P) by assumption] end.

Lemma types_apart p : p_type p = lit "confirm" \/ p_type p = lit "input" \/ p_type p = lit "select" \/ p_type p = lit "multiselect" \/
  p_type p = lit "password" \/ p_type p = lit "number" \/ ~ known_type p.
Proof.
  unfold known_type, one_of. destruct (decide (p_type p ∈ map lit ["confirm"; "input"; "select"; "multiselect"; "password"; "number"]%string)) as [H|H]; [|tauto].
  cbn [map] in H. repeat (apply elem_of_cons in H as [H|H]; [tauto|]). inversion H.
Qed.

Lemma not_one_of l s : bool_decide (s ∈ map lit l) = false -> ~ one_of l s.
Proof. apply bool_decide_eq_false. Qed.
Lemma is_one_of l s : bool_decide (s ∈ map lit l) = true -> one_of l s.
Proof. apply bool_decide_eq_true. Qed.
#[local] Instance one_of_dec l s : Decision (one_of l s).
Proof. unfold one_of. apply _. Defined.

(** C52. Without a terminal no form is shown; a prompt answers exactly with the
    value it declares, and fails if it declares none. *)
Theorem C52_declared_default L p msg d r : lower_ok L -> asked (run_prompt L false p msg) d r ->
  d = [] /\ (forall v, r = Ok v <-> declared p v) /\ (forall e, r = Err e <-> e = PNoTTY /\ forall v, ~ declared p v).
Proof.
  intros HL H. cbn [run_prompt] in H. inversion H; subst. split; [reflexivity|].
  assert (G : (exists v, non_interactive L p = Ok v /\ declared p v /\ forall v', declared p v' -> v' = v) \/
              (non_interactive L p = Err PNoTTY /\ forall v, ~ declared p v)).
  2:{ destruct G as [(v & -> & Hv & Hu)|(-> & Hn)]; (split; [intros v'; split|intros e; split]).
      - intros [= <-]. exact Hv.
      - intros H'. rewrite (Hu _ H'). reflexivity.
      - discriminate.
      - intros [_ H']. destruct (H' _ Hv).
      - discriminate.
      - intros H'. destruct (Hn _ H').
      - intros [= <-]. split; [reflexivity|exact Hn].
      - intros [-> _]. reflexivity. }
  clear H. unfold non_interactive. cbn zeta.
  destruct (decide (p_type p = lit "confirm")) as [Et|N1].
  { assert (No : ~ one_of ["input"; "select"; "number"] (p_type p)) by (rewrite Et; apply not_one_of; vm_compute; reflexivity).
    assert (Nm : p_type p <> lit "multiselect") by (rewrite Et; discriminate).
    rewrite bool_decide_eq_true_2 by exact Et. destruct (p_default p) as [|a s] eqn:Ed.
    - right. split; [reflexivity|]. intros v Hv. inversion Hv; congruence.
    - left. destruct (normalize_spec L (a :: s) HL) as [[Hy ->]|[Hn ->]]; eexists; (split; [reflexivity|]); rewrite <- Ed in *.
      + split; [apply declared_yes; congruence|]. intros v Hv. inversion Hv; (reflexivity || contradiction).
      + split; [apply declared_no; congruence|]. intros v Hv. inversion Hv; (reflexivity || contradiction). }
  rewrite bool_decide_eq_false_2 by exact N1.
  destruct (decide (one_of ["input"; "select"; "number"] (p_type p))) as [Et|N2].
  { assert (Nm : p_type p <> lit "multiselect") by (intros E; rewrite E in Et; revert Et; apply not_one_of; vm_compute; reflexivity).
    rewrite bool_decide_eq_true_2 by exact Et. destruct (p_default p) as [|a s] eqn:Ed.
    - right. split; [reflexivity|]. intros v Hv. inversion Hv; congruence.
    - left. eexists. split; [reflexivity|]. rewrite <- Ed. split; [apply declared_text; [exact Et|congruence]|].
      intros v Hv. inversion Hv; congruence. }
  rewrite bool_decide_eq_false_2 by exact N2.
  destruct (decide (p_type p = lit "multiselect")) as [Et|N3].
  { rewrite bool_decide_eq_true_2 by exact Et. destruct (p_defaults p) as [|a s] eqn:Ed.
    - right. split; [reflexivity|]. intros v Hv. inversion Hv; congruence.
    - left. eexists. split; [reflexivity|]. rewrite <- Ed. split; [apply declared_list; [exact Et|congruence]|].
      intros v Hv. inversion Hv; try congruence. }
  rewrite bool_decide_eq_false_2 by exact N3. right. split; [reflexivity|]. intros v Hv. inversion Hv; congruence.
Qed.
(** A confirm answers only true or false; a password prompt fails; so does a prompt without a default. *)
Theorem C52_consequences L p msg d r : lower_ok L -> asked (run_prompt L false p msg) d r ->
  (p_type p = lit "confirm" -> forall v, r = Ok v -> v = lit "true" \/ v = lit "false") /\
  (p_type p = lit "password" \/ ~ known_type p -> r = Err PNoTTY) /\
  (p_default p = [] -> p_defaults p = [] -> r = Err PNoTTY).
Proof.
  intros HL H. destruct (C52_declared_default _ _ _ _ _ HL H) as (_ & H1 & H2). repeat split.
  - intros Et v Hv. apply H1 in Hv. inversion Hv as [| |Ho _|Em _]; subst; [left; reflexivity|right; reflexivity| |rewrite Et in Em; discriminate Em].
    rewrite Et in Ho. exfalso. revert Ho. apply not_one_of. vm_compute. reflexivity.
  - intros Ht. apply H2. split; [reflexivity|]. intros v Hv. destruct Ht as [Ht|Ht].
    + inversion Hv as [E|E|Ho|E]; try (rewrite Ht in E; discriminate E). rewrite Ht in Ho. revert Ho. apply not_one_of. vm_compute. reflexivity.
    + apply Ht. clear Ht. unfold known_type, one_of. inversion Hv as [E _ _|E _ _|Ho _|E _].
      3:{ unfold one_of in Ho. cbn [map] in *. rewrite !elem_of_cons in *. tauto. }
      all: rewrite E; apply is_one_of; vm_compute; reflexivity.
  - intros Ed Eds. apply H2. split; [reflexivity|]. intros v Hv. inversion Hv; congruence.
Qed.

Lemma asked_submitted f k d r : asked (submitted f k) d r ->
  exists o d', d = (f, o) :: d' /\ possible f o /\
    ((o = Aborted /\ r = Err PCancelled /\ d' = []) \/ (o = Broke /\ r = Err PBroke /\ d' = []) \/ (o <> Aborted /\ o <> Broke /\ asked (k o) d' r)).
Proof.
  intros H. inversion H as [|? ? o d' ? Hp Hk]; subst. exists o, d'. split; [reflexivity|]. split; [exact Hp|].
  destruct o; cbn beta iota in Hk; try (right; right; split; [discriminate|split; [discriminate|exact Hk]]); inversion Hk; subst; auto.
Qed.
Lemma submitted_asked f k o d r : possible f o -> o <> Aborted -> o <> Broke -> asked (k o) d r -> asked (submitted f k) ((f, o) :: d) r.
Proof. intros Hp H1 H2 Hk. apply asked_show; [exact Hp|]. destruct o; try contradiction; exact Hk. Qed.

Lemma asked_Answer r d r' : asked (Answer r) d r' -> d = [] /\ r' = r.
Proof. intros H. inversion H; auto. Qed.

(** Which of the six programs it is. *)
Lemma run_typed L p msg t : p_type p = lit t ->
  run_prompt L true p msg =
    (if bool_decide (t = "confirm")%string then run_confirm L p msg
     else if bool_decide (t = "input")%string then run_input L p msg
     else if bool_decide (t = "select")%string then run_select p msg
     else if bool_decide (t = "multiselect")%string then run_multiselect p msg
     else if bool_decide (t = "password")%string then run_password L p msg
     else if bool_decide (t = "number")%string then run_number p msg
     else Answer (Err PUnknown)).
Proof.
  intros E. unfold run_prompt. rewrite E. cbn zeta.
  assert (I : forall a, bool_decide (lit t = lit a) = bool_decide (t = a)).
  { intros a. apply bool_decide_ext. unfold lit. split; [|congruence]. intros H. apply (f_equal string_of_list_ascii) in H. rewrite !string_of_list_ascii_of_string in H. exact H. }
  rewrite !I. reflexivity.
Qed.

(** The answers at a terminal. *)
Inductive answered (L : prompt_lib) (p : prompt_run) : str -> Prop :=
| answered_confirm s : p_type p = lit "confirm" -> s = lit "true" \/ s = lit "false" -> answered L p s
| answered_input s : p_type p = lit "input" -> (p_validate p <> [] -> pl_compiles L (p_validate p) = true /\ pl_matches L (p_validate p) s = true) -> answered L p s
| answered_select s : p_type p = lit "select" -> s ∈ p_options p -> answered L p s
| answered_multi l : p_type p = lit "multiselect" -> l `sublist_of` p_options p -> within p (Z.of_nat (length l)) -> answered L p (join_with (lit ",") l)
| answered_password s : p_type p = lit "password" -> answered L p s
| answered_number s z : p_type p = lit "number" -> integer s z -> within p z -> answered L p s
| answered_nothing : p_type p = lit "number" -> p_default p <> [] -> answered L p [].

Lemma accept_number_spec p s : accept_number p s = true <-> (exists z, integer s z /\ within p z) \/ (s = [] /\ p_default p <> []).
Proof.
  unfold accept_number. destruct s as [|c s].
  - split; [destruct (p_default p); [discriminate|intros _; right; split; [reflexivity|discriminate]]|]. intros [(z & Hz & _)|[_ H]]; [apply atoi_spec in Hz; discriminate Hz|].
    destruct (p_default p); [contradiction|reflexivity].
  - split.
    + destruct (atoi (c :: s)) as [z|] eqn:E; [|discriminate]. intros H. left. exists z. split; [apply atoi_spec; exact E|apply in_limits_spec; exact H].
    + intros [(z & Hz & Hw)|[H _]]; [|discriminate]. apply atoi_spec in Hz. rewrite Hz. apply in_limits_spec. exact Hw.
Qed.

Lemma answered_sound L p msg d s : asked (run_prompt L true p msg) d (Ok s) -> answered L p s.
Proof.
  intros H. destruct (types_apart p) as [Et|[Et|[Et|[Et|[Et|[Et|Et]]]]]].
  1-6: rewrite (run_typed _ _ _ _ Et) in H; rewrite ?bool_decide_eq_true_2, ?bool_decide_eq_false_2 in H by (reflexivity || discriminate).
  - apply asked_submitted in H as (o & d' & -> & Hp & [(_ & H & _)|[(_ & H & _)|(_ & _ & H)]]); [discriminate H..|]. apply asked_Answer in H as [_ [= ->]].
    apply answered_confirm; [exact Et|]. destruct o as [[]| | | |]; auto.
  - unfold run_input in H. destruct (p_validate p) as [|c re] eqn:Ev; [|destruct (pl_compiles L _) eqn:Ec; [|apply asked_Answer in H as [_ H]; discriminate H]];
      apply asked_submitted in H as (o & d' & -> & Hp & [(_ & H & _)|[(_ & H & _)|(N1 & N2 & H)]]); try discriminate H; apply asked_Answer in H as [_ [= ->]];
      (apply answered_input; [exact Et|]); rewrite Ev; [contradiction|]. intros _. split; [exact Ec|]. inversion Hp; subst; try contradiction. assumption.
  - apply asked_submitted in H as (o & d' & -> & Hp & [(_ & H & _)|[(_ & H & _)|(N1 & N2 & H)]]); [discriminate H..|]. apply asked_Answer in H as [_ [= ->]].
    apply answered_select; [exact Et|]. inversion Hp; subst; try contradiction. assumption.
  - apply asked_submitted in H as (o & d' & -> & Hp & [(_ & H & _)|[(_ & H & _)|(N1 & N2 & H)]]); [discriminate H..|]. apply asked_Answer in H as [_ [= ->]].
    inversion Hp as [| | |? ? ? l Hl Hw| |]; subst; try contradiction. rewrite map_map, map_id in Hl. apply answered_multi; [exact Et|exact Hl|apply in_limits_spec; exact Hw].
  - apply answered_password. exact Et.
  - apply asked_submitted in H as (o & d' & -> & Hp & [(_ & H & _)|[(_ & H & _)|(N1 & N2 & H)]]); [discriminate H..|]. apply asked_Answer in H as [_ [= ->]].
    inversion Hp as [|? ? ? ? ? s Hs| | | |]; subst; try contradiction. cbn [text_of]. apply accept_number_spec in Hs as [(z & Hz & Hw)|[-> Hd]]; [eapply answered_number; eassumption|apply answered_nothing; assumption].
  - exfalso. unfold run_prompt in H. cbn zeta in H. rewrite !bool_decide_eq_false_2 in H by (intros E; apply Et; unfold known_type; rewrite E; apply is_one_of; vm_compute; reflexivity).
    apply asked_Answer in H as [_ H]. discriminate H.
Qed.
Lemma answered_complete L p msg s : answered L p s -> exists d, asked (run_prompt L true p msg) d (Ok s).
Proof.
  intros H. destruct H as [s Et H|s Et H|s Et H|l Et H Hw|s Et|s z Et Hz Hw|Et Hd]; rewrite (run_typed _ _ _ _ Et);
    rewrite ?bool_decide_eq_true_2, ?bool_decide_eq_false_2 by (reflexivity || discriminate).
  - unfold run_confirm. destruct H as [->| ->]; eexists.
    + apply (submitted_asked _ _ (Yes true) []); [constructor|discriminate..|]. apply asked_answer.
    + apply (submitted_asked _ _ (Yes false) []); [constructor|discriminate..|]. apply asked_answer.
  - unfold run_input. destruct (p_validate p) as [|c re] eqn:Ev; eexists.
    + apply (submitted_asked _ _ (Text s) []); [constructor; reflexivity|discriminate..|]. apply asked_answer.
    + destruct (H ltac:(discriminate)) as [-> Hm]. apply (submitted_asked _ _ (Text s) []); [constructor; exact Hm|discriminate..|]. apply asked_answer.
  - eexists. apply (submitted_asked _ _ (Text s) []); [constructor; exact H|discriminate..|]. apply asked_answer.
  - eexists. apply (submitted_asked _ _ (Picked l) []); [constructor; [rewrite map_map, map_id; exact H|apply in_limits_spec; exact Hw]|discriminate..|]. apply asked_answer.
  - unfold run_password. destruct (p_confirm p) as [[]|] eqn:Ec.
    + eexists. eapply (submitted_asked _ _ (Text s)); [constructor; reflexivity|discriminate..|]. cbn zeta. cbn [text_of].
      apply (submitted_asked _ _ (Text s) []); [constructor; apply bool_decide_eq_true; reflexivity|discriminate..|]. apply asked_answer.
    + eexists. eapply (submitted_asked _ _ (Text s) []); [constructor; reflexivity|discriminate..|]. apply asked_answer.
    + eexists. eapply (submitted_asked _ _ (Text s) []); [constructor; reflexivity|discriminate..|]. apply asked_answer.
  - eexists. apply (submitted_asked _ _ (Text s) []); [constructor; apply accept_number_spec; eauto|discriminate..|]. apply asked_answer.
  - eexists. apply (submitted_asked _ _ (Text []) []); [constructor; apply accept_number_spec; auto|discriminate..|]. apply asked_answer.
Qed.

(** C53 at a terminal, exactly: the texts a prompt can answer are the ones its
    declaration allows, plus, for a number with a default, the empty text. *)
Theorem C53_terminal_answers L p msg s : (exists d, asked (run_prompt L true p msg) d (Ok s)) <-> answered L p s.
Proof. split; [intros [d H]; eapply answered_sound; exact H|apply answered_complete]. Qed.

Lemma sublist_in {A} (l k : list A) : l `sublist_of` k -> Forall (fun x => x ∈ k) l.
Proof. intros H. apply Forall_forall. intros x Hx. eapply elem_of_submseteq; [exact Hx|]. apply sublist_submseteq. exact H. Qed.

Ltac types := repeat match goal with H : p_type ?p = lit _ |- _ => revert H end; intros; congruence.

(** C53 at a terminal. Missing: a number prompt that has a default also takes the
    empty text (see the refutation below). *)
Theorem C53_terminal_partial L p msg d s : asked (run_prompt L true p msg) d (Ok s) ->
  (p_type p = lit "number" -> p_default p = [] \/ s <> []) -> keeps L p s.
Proof.
  intros H Hn. apply answered_sound in H.
  assert (T : forall a b, p_type p = lit a -> p_type p = lit b -> lit a = lit b) by congruence.
  destruct H as [s Et H|s Et H|s Et H|l Et H Hw|s Et|s z Et Hz Hw|Et Hd]; [..|exfalso; destruct (Hn Et); contradiction];
    split; intros E; pose proof (T _ _ Et E) as C; try discriminate C; clear C.
  - exact H.
  - intros Hv. apply H. exact Hv.
  - exact H.
  - exists l. split; [reflexivity|]. split; [apply sublist_in; exact H|exact Hw].
  - exists z. auto.
Qed.

(** Without a terminal, for a prompt that the parser let through and whose texts were
    then interpolated: the answer is true or false, an option, options, an integer.
    Missing: limits and patterns are not tested (refuted below); the second half says
    that this is all that is missing. *)
Theorem C53_default_partial L re getenv vars p q msg d s : lower_ok L -> prompt_ok re p -> Run_Model.interpolate_prompt getenv vars p = Ok q ->
  asked (run_prompt L false q msg) d (Ok s) ->
  (p_type q = lit "confirm" -> s = lit "true" \/ s = lit "false") /\
  (p_type q = lit "select" -> s ∈ p_options q) /\
  (p_type q = lit "multiselect" -> s = join_with (lit ",") (p_defaults q) /\ Forall (fun x => x ∈ p_options q) (p_defaults q)) /\
  (p_type q = lit "number" -> s = p_default q /\ exists z, integer s z) /\
  (keeps L q s <->
     (p_type q = lit "input" -> p_validate q <> [] -> pl_matches L (p_validate q) (p_default q) = true) /\
     (p_type q = lit "multiselect" -> exists l, join_with (lit ",") (p_defaults q) = join_with (lit ",") l /\
        Forall (fun x => x ∈ p_options q) l /\ within q (Z.of_nat (length l))) /\
     (p_type q = lit "number" -> exists z, integer (p_default q) z /\ within q z)).
Proof.
  intros HL Hp Hq H. destruct (P_Doc.C54_survives_interpolation _ _ _ _ _ Hp Hq) as (Et & _ & _ & Hsel & _ & Hin & Hmin & Hmax & Hval & Hnum).
  destruct (C52_declared_default _ _ _ _ _ HL H) as (_ & Hd & _). pose proof (proj1 (Hd s) eq_refl) as Hs. clear Hd.
  assert (T : forall a b, p_type q = lit a -> p_type q = lit b -> lit a = lit b) by congruence.
  assert (C : p_type q = lit "confirm" -> s = lit "true" \/ s = lit "false").
  { intros E. destruct (C52_consequences _ _ _ _ _ HL H) as (C & _). apply C; [exact E|reflexivity]. }
  assert (D : one_of ["input"; "select"; "number"] (p_type q) -> s = p_default q /\ p_default q <> []).
  { intros E. inversion Hs as [E'|E'|_ Hne E'|E']; try (rewrite E' in E; exfalso; revert E; apply not_one_of; vm_compute; reflexivity). auto. }
  assert (S : p_type q = lit "select" -> s ∈ p_options q).
  { intros E. destruct D as [-> Hne]; [rewrite E; apply is_one_of; vm_compute; reflexivity|]. apply Hsel; [exact E|].
    intros E0. unfold Run_Model.interpolate_prompt in Hq. rewrite E0 in Hq.
    destruct (Interp_Model.interpolate _ _ _); [|discriminate]. destruct (match p_placeholder p with [] => _ | _ => _ end); [|discriminate].
    destruct (Run_Model.interpolate_list _ _ _); [|discriminate]. destruct (Run_Model.interpolate_list _ _ _); [|discriminate]. injection Hq as <-. apply Hne. reflexivity. }
  assert (M : p_type q = lit "multiselect" -> s = join_with (lit ",") (p_defaults q) /\ Forall (fun x => x ∈ p_options q) (p_defaults q)).
  { intros E. split; [|exact Hin]. inversion Hs as [E'|E'|E'|E']; try (pose proof (T _ _ E E') as X; discriminate X); [|reflexivity]. rewrite E in E'. exfalso. revert E'. apply not_one_of. vm_compute. reflexivity. }
  assert (N : p_type q = lit "number" -> s = p_default q /\ exists z, integer s z).
  { intros E. destruct D as [-> Hne]; [rewrite E; apply is_one_of; vm_compute; reflexivity|]. split; [reflexivity|]. rewrite (Hnum E) in *.
    apply (po_number _ _ Hp); [congruence|exact Hne]. }
  split; [exact C|]. split; [exact S|]. split; [exact M|]. split; [exact N|]. split.
  - intros [_ K2 _ K4 K5]. split; [|split].
    + intros E Hv. destruct D as [<- _]; [rewrite E; apply is_one_of; vm_compute; reflexivity|]. apply K2; assumption.
    + intros E. destruct (M E) as [<- _]. destruct (K4 E) as (l & Hl & Hf & Hw). eauto.
    + intros E. destruct (N E) as [<- _]. exact (K5 E).
  - intros (K2 & K4 & K5). split.
    + exact C.
    + intros E Hv. destruct D as [-> _]; [rewrite E; apply is_one_of; vm_compute; reflexivity|]. apply K2; assumption.
    + exact S.
    + intros E. destruct (M E) as [-> _]. exact (K4 E).
    + intros E. destruct (N E) as [-> _]. exact (K5 E).
Qed.

(** A password with [confirm] was typed twice, the same both times; what is typed is never shown. *)
Theorem C53_password_confirmed L p msg d s : asked (run_prompt L true p msg) d (Ok s) -> p_type p = lit "password" ->
  (forall f o, (f, o) ∈ d -> o = Text s /\ exists t i ph ok, f = FInput t i ph ok false) /\
  length d = (match p_confirm p with Some true => 2 | _ => 1 end).
Proof.
  intros H Et. rewrite (run_typed _ _ _ _ Et) in H; rewrite ?bool_decide_eq_true_2, ?bool_decide_eq_false_2 in H by (reflexivity || discriminate).
  apply asked_submitted in H as (o & d' & -> & Hp & [(_ & H & _)|[(_ & H & _)|(N1 & N2 & H)]]); [discriminate H..|].
  inversion Hp as [|? ? ? ? ? s0 Hs| | | |]; subst; try contradiction. cbn zeta in H. cbn [text_of] in H.
  assert (G1 : forall d0, d0 = [] -> forall f o, (f, o) ∈ (FInput msg [] [] (fun _ => true) false, Text s0) :: d0 -> o = Text s0 /\ exists t i ph ok, f = FInput t i ph ok false).
  { intros d0 -> f o Hf. apply elem_of_list_singleton in Hf as [= -> ->]. split; [reflexivity|]. do 4 eexists. reflexivity. }
  destruct (p_confirm p) as [[]|] eqn:Ec; [|apply asked_Answer in H as [-> [= <-]]; split; [apply G1; reflexivity|reflexivity]..].
  apply asked_submitted in H as (o & d2 & -> & Hp2 & [(_ & H & _)|[(_ & H & _)|(N3 & N4 & H)]]); [discriminate H..|]. apply asked_Answer in H as [-> [= <-]].
  inversion Hp2 as [|? ? ? ? ? s1 Hs1| | | |]; subst; try contradiction. apply bool_decide_eq_true in Hs1 as ->.
  split; [|reflexivity]. intros f o Hf. apply elem_of_cons in Hf as [[= -> ->]|Hf]; [split; [reflexivity|do 4 eexists; reflexivity]|].
  apply elem_of_list_singleton in Hf as [= -> ->]. split; [reflexivity|]. do 4 eexists. reflexivity.
Qed.

(** Leaving a form makes the prompt fail, and nothing more is asked. *)
Theorem C53_left_form_fails L p msg d r f o : asked (run_prompt L true p msg) d r -> (f, o) ∈ d ->
  (o = Aborted -> r = Err PCancelled /\ last d = Some (f, o)) /\ (o = Broke -> r = Err PBroke /\ last d = Some (f, o)).
Proof.
  assert (One : forall f0 g, forall d, asked (submitted f0 (fun o => Answer (Ok (g o)))) d r -> (f, o) ∈ d ->
     (o = Aborted -> r = Err PCancelled /\ last d = Some (f, o)) /\ (o = Broke -> r = Err PBroke /\ last d = Some (f, o))).
  { intros f0 g d0 H Hf. apply asked_submitted in H as (o' & d' & -> & _ & [(-> & -> & ->)|[(-> & -> & ->)|(N1 & N2 & H)]]).
    - apply elem_of_list_singleton in Hf as [= -> ->]. split; [auto|discriminate].
    - apply elem_of_list_singleton in Hf as [= -> ->]. split; [discriminate|auto].
    - apply asked_Answer in H as [-> ->]. apply elem_of_list_singleton in Hf as [= -> ->]. split; intros ->; contradiction. }
  intros H Hf. destruct (types_apart p) as [Et|[Et|[Et|[Et|[Et|[Et|Et]]]]]].
  1-6: rewrite (run_typed _ _ _ _ Et) in H; rewrite ?bool_decide_eq_true_2, ?bool_decide_eq_false_2 in H by (reflexivity || discriminate).
  - eapply One; [exact H|exact Hf].
  - unfold run_input in H. destruct (p_validate p); [eapply One; [exact H|exact Hf]|]. destruct (pl_compiles _ _); [eapply One; [exact H|exact Hf]|].
    apply asked_Answer in H as [-> _]. inversion Hf.
  - eapply One; [exact H|exact Hf].
  - eapply One; [exact H|exact Hf].
  - apply asked_submitted in H as (o' & d' & -> & _ & [(-> & -> & ->)|[(-> & -> & ->)|(N1 & N2 & H)]]).
    + apply elem_of_list_singleton in Hf as [= -> ->]. split; [auto|discriminate].
    + apply elem_of_list_singleton in Hf as [= -> ->]. split; [discriminate|auto].
    + apply elem_of_cons in Hf as [[= -> ->]|Hf]; [split; intros ->; contradiction|]. cbn zeta in H.
      destruct (p_confirm p) as [[]|]; [|apply asked_Answer in H as [-> _]; inversion Hf..].
      specialize (One _ _ _ H Hf). destruct d' as [|x d']; [inversion Hf|]. exact One.
  - eapply One; [exact H|exact Hf].
  - unfold run_prompt in H. cbn zeta in H. rewrite !bool_decide_eq_false_2 in H by (intros E; apply Et; unfold known_type; rewrite E; apply is_one_of; vm_compute; reflexivity).
    apply asked_Answer in H as [-> _]. inversion Hf.
Qed.

(** A prompt that the parser let through does not crash the program and has a known type. *)
Theorem C53_no_panic L re p q getenv vars terminal msg d e : prompt_ok re p -> (forall s, re s -> pl_compiles L s = true) ->
  Run_Model.interpolate_prompt getenv vars p = Ok q -> asked (run_prompt L terminal q msg) d (Err e) -> e <> PPanic /\ e <> PUnknown.
Proof.
  intros Hp Hre Hq H. destruct (P_Doc.C54_survives_interpolation _ _ _ _ _ Hp Hq) as (Et & _ & _ & _ & _ & _ & _ & _ & Hval & _).
  destruct terminal.
  - assert (One : forall f0 g d, asked (submitted f0 (fun o => Answer (Ok (g o)))) d (Err e) -> e <> PPanic /\ e <> PUnknown).
    { intros f0 g d0 H0. apply asked_submitted in H0 as (o' & d' & -> & _ & [(-> & [= ->] & ->)|[(-> & [= ->] & ->)|(N1 & N2 & H0)]]); [split; discriminate..|].
      apply asked_Answer in H0 as [_ H0]. discriminate H0. }
    destruct (types_apart q) as [E|[E|[E|[E|[E|[E|E]]]]]].
    1-6: rewrite (run_typed _ _ _ _ E) in H; rewrite ?bool_decide_eq_true_2, ?bool_decide_eq_false_2 in H by (reflexivity || discriminate).
    1,3,4,6: eapply One; exact H.
    + unfold run_input in H. destruct (p_validate q) as [|c v] eqn:Ev; [eapply One; exact H|].
      rewrite (Hre (c :: v)) in H; [eapply One; exact H|]. rewrite Hval. apply (po_validate _ _ Hp). rewrite <- Hval. discriminate.
    + apply asked_submitted in H as (o' & d' & -> & _ & [(-> & [= ->] & ->)|[(-> & [= ->] & ->)|(N1 & N2 & H)]]); [split; discriminate..|]. cbn zeta in H.
      destruct (p_confirm q) as [[]|]; [eapply (One _ (fun _ => _)); exact H|apply asked_Answer in H as [_ H]; discriminate H..].
    + exfalso. apply E. unfold known_type. rewrite Et. apply (po_type _ _ Hp).
  - cbn [run_prompt] in H. apply asked_Answer in H as [_ H]. unfold non_interactive in H. cbn zeta in H.
    repeat match type of H with context [if ?b then _ else _] => destruct b end; repeat match type of H with context [match ?x with [] => _ | _ :: _ => _ end] => destruct x end;
      try discriminate H; injection H as ->; split; discriminate.
Qed.

(** ** C64: reading a multiselect's answer back *)
(** If no option is empty or has a comma in it, two dialogues with the same answer are
    the same, and the answer cut at its commas is what was picked, in the order of the
    options. With commas in options it is not so (refuted below). *)
Theorem C64_multiselect_read_back L p msg d s : asked (run_prompt L true p msg) d (Ok s) -> p_type p = lit "multiselect" ->
  Forall (fun o => o <> [] /\ ","%char ∉ o) (p_options p) ->
  exists f l, d = [(f, Picked l)] /\ sublist l (p_options p) /\ (l = [] <-> s = []) /\ (l <> [] -> split_on ","%char s = l) /\
    forall d', asked (run_prompt L true p msg) d' (Ok s) -> d' = d.
Proof.
  intros H Et Ho.
  assert (G : forall d, asked (run_prompt L true p msg) d (Ok s) -> exists l,
     d = [(FMulti msg (map (fun o => (o, bool_decide (o ∈ p_defaults p))) (p_options p)) (fun l => in_limits p (Z.of_nat (length l))), Picked l)] /\
     s = join_with (lit ",") l /\ Forall (fun o => o <> [] /\ ","%char ∉ o) l /\ sublist l (p_options p)).
  { intros d0 H0. rewrite (run_typed _ _ _ _ Et) in H0; rewrite ?bool_decide_eq_true_2, ?bool_decide_eq_false_2 in H0 by (reflexivity || discriminate).
    apply asked_submitted in H0 as (o & d' & -> & Hp & [(_ & H0 & _)|[(_ & H0 & _)|(N1 & N2 & H0)]]); [discriminate H0..|]. apply asked_Answer in H0 as [-> [= ->]].
    inversion Hp as [| | |? ? ? l Hl Hw| |]; subst; try contradiction. rewrite map_map, map_id in Hl. exists l. split; [reflexivity|]. split; [reflexivity|]. split; [|exact Hl].
    apply Forall_forall. intros x Hx. rewrite Forall_forall in Ho. apply Ho. apply sublist_in in Hl. rewrite Forall_forall in Hl. apply Hl. exact Hx. }
  destruct (G d H) as (l & -> & Es & Hl & Hs). exists (FMulti msg (map (fun o => (o, bool_decide (o ∈ p_defaults p))) (p_options p)) (fun l => in_limits p (Z.of_nat (length l)))), l.
  assert (E : forall l, Forall (fun o => o <> [] /\ ","%char ∉ o) l -> (l = [] <-> join_with (lit ",") l = [])).
  { intros k Hk. split; [intros ->; reflexivity|]. destruct k as [|w k]; [reflexivity|]. apply Forall_cons in Hk as [[Hw _] _]. destruct w as [|c w]; [contradiction|]. destruct k; discriminate. }
  assert (Sp : forall l, Forall (fun o => o <> [] /\ ","%char ∉ o) l -> l <> [] -> split_on ","%char (join_with (lit ",") l) = l).
  { intros k Hk Hn. apply join_split_gen; [exact Hn|]. eapply Forall_impl; [exact Hk|]. intros ? [_ ?]. assumption. }
  split; [reflexivity|]. split; [exact Hs|]. split; [rewrite Es; apply E; exact Hl|]. split; [intros Hn; rewrite Es; apply Sp; assumption|].
  intros d' H'. destruct (G d' H') as (l' & -> & Es' & Hl' & _). f_equal. f_equal. f_equal.
  destruct (decide (s = [])) as [E0|E0].
  - rewrite Es in E0. apply E in E0; [|exact Hl]. rewrite E0. apply E; [exact Hl'|]. rewrite <- Es', Es, E0. reflexivity.
  - assert (N : l <> []) by (intros El; apply E0; rewrite Es, El; reflexivity). assert (N' : l' <> []) by (intros El; apply E0; rewrite Es', El; reflexivity).
    rewrite <- (Sp l Hl N), <- (Sp l' Hl' N'), <- Es, <- Es'. reflexivity.
Qed.

(** ** Cases *)
(** A library: ASCII lower case, and one pattern language, where a pattern is matched by the texts it begins. *)
Definition low (c : ascii) : ascii := if decide (65 <= code c <= 90) then chr (code c + 32) else c.
Definition toyl : prompt_lib := PromptLib (map low) (fun _ => true) (fun re s => has_prefix re s).
Lemma low_same c d : 97 <= code d <= 122 \/ code d = 49 -> low c = d <-> same_letter c d.
Proof.
  intros Hd. unfold low, same_letter. case_decide as E.
  - split.
    + intros <-. right. split; [exact E|]. unfold chr, code. rewrite nat_ascii_embedding; [reflexivity|]. unfold code in E. lia.
    + intros [->|[_ H]]; [lia|]. rewrite <- H. unfold chr, code. apply ascii_nat_embedding.
  - split; [auto|]. intros [H|[H _]]; [exact H|contradiction].
Qed.
Lemma toyl_ok : lower_ok toyl.
Proof.
  intros s w Hw.
  assert (F : Forall (fun d => 97 <= code d <= 122 \/ code d = 49) w).
  { unfold one_of in Hw. cbn [map] in Hw. rewrite !elem_of_cons in Hw. destruct Hw as [->|[->|[->|[->|Hw]]]]; [..|inversion Hw]; repeat (constructor; [vm_compute; lia|]); constructor. }
  clear Hw. cbn [pl_lower toyl]. revert s. unfold spelled. induction F as [|d w Hd _ IH]; intros s.
  - split; [destruct s; [constructor|discriminate]|]. intros H. inversion H. reflexivity.
  - destruct s as [|c s]; cbn [map]; [split; [discriminate|intros H; inversion H]|]. rewrite Forall2_cons, <- IH, <- (low_same c d Hd). split; [intros [= <- <-]; auto|intros [<- <-]; reflexivity].
Qed.
Definition pr (t : string) (def : string) (defs opts : list string) (re : string) (lo hi : option Z) (conf : option bool) : prompt_run :=
  PromptRun 1 (lit "v") (lit t) (lit "m") [] (lit def) (map lit defs) (map lit opts) [] (lit re) lo hi conf [].

(** C52: [Yes] counts as true, anything else as false; a list is joined. *)
Example C52_met : asked (run_prompt toyl false (pr "confirm" "YES" [] [] "" None None None) []) [] (Ok (lit "true")) /\
  asked (run_prompt toyl false (pr "confirm" "on" [] [] "" None None None) []) [] (Ok (lit "false")) /\
  asked (run_prompt toyl false (pr "multiselect" "" ["b"; "a"] ["a"; "b"; "c"] "" None None None) []) [] (Ok (lit "b,a")) /\
  asked (run_prompt toyl false (pr "password" "" [] [] "" None None (Some true)) []) [] (Err PNoTTY) /\
  asked (run_prompt toyl false (pr "input" "" [] [] "" None None None) []) [] (Err PNoTTY).
Proof. repeat split; apply asked_answer. Qed.

(** C53: a number between its limits, two of three options, a password typed twice. *)
Example C53_met : (exists d, asked (run_prompt toyl true (pr "number" "5" [] [] "" (Some 1%Z) (Some 10%Z) None) []) d (Ok (lit "+7"))) /\
  (exists d, asked (run_prompt toyl true (pr "multiselect" "" [] ["a"; "b"; "c"] "" (Some 1%Z) (Some 2%Z) None) []) d (Ok (lit "a,c"))) /\
  (forall d, ~ asked (run_prompt toyl true (pr "number" "" [] [] "" (Some 1%Z) (Some 10%Z) None) []) d (Ok (lit "11"))) /\
  (exists d, asked (run_prompt toyl true (pr "password" "" [] [] "" None None (Some true)) []) d (Ok (lit "pw")) /\ length d = 2) /\
  (exists d, asked (run_prompt toyl true (pr "select" "" [] ["x"; "y"] "" None None None) []) d (Err PCancelled) /\ length d = 1).
Proof.
  split; [|split; [|split; [|split]]].
  - apply C53_terminal_answers. eapply (answered_number _ _ _ 7%Z); [reflexivity|apply atoi_spec; vm_compute; reflexivity|split; intros ? [= <-]; lia].
  - apply C53_terminal_answers. apply (answered_multi _ _ [lit "a"; lit "c"]); [reflexivity| |split; intros ? [= <-]; simpl; lia].
    cbn. apply sublist_skip. apply sublist_cons. apply sublist_skip. constructor.
  - intros d H. apply C53_terminal_partial in H; [|left; reflexivity]. destruct (k_number _ _ _ H eq_refl) as (z & Hz & [_ Hw]). apply atoi_spec in Hz. vm_compute in Hz.
    injection Hz as <-. specialize (Hw _ eq_refl). lia.
  - destruct (proj2 (C53_terminal_answers toyl (pr "password" "" [] [] "" None None (Some true)) [] (lit "pw"))) as [d H]; [apply answered_password; reflexivity|].
    exists d. split; [exact H|]. exact (proj2 (C53_password_confirmed _ _ _ _ _ H eq_refl)).
  - eexists. split; [apply asked_show; [apply possible_abort|apply asked_answer]|reflexivity].
Qed.
Example C64_met : exists d, asked (run_prompt toyl true (pr "multiselect" "" [] ["a"; "b"; "c"] "" (Some 1%Z) (Some 2%Z) None) []) d (Ok (lit "a,c")) /\
  Forall (fun o => o <> [] /\ ","%char ∉ o) (p_options (pr "multiselect" "" [] ["a"; "b"; "c"] "" (Some 1%Z) (Some 2%Z) None)).
Proof.
  destruct C53_met as (_ & (d & H) & _). exists d. split; [exact H|]. cbn. repeat (constructor; [split; [discriminate|rewrite elem_of_list_singleton; discriminate]|]). constructor.
Qed.

(** The full claim C53 is false. At a terminal: a number with a default takes the empty text. *)
Theorem C53_empty_number_refuted : exists L p msg d s, prompt_ok (fun re => pl_compiles L re = true) p /\
  asked (run_prompt L true p msg) d (Ok s) /\ ~ keeps L p s.
Proof.
  exists toyl, (pr "number" "5" [] [] "" (Some 1%Z) (Some 10%Z) None), [].
  destruct (proj2 (C53_terminal_answers toyl (pr "number" "5" [] [] "" (Some 1%Z) (Some 10%Z) None) [] [])) as [d H]; [apply answered_nothing; [reflexivity|discriminate]|].
  exists d, []. split; [|split; [exact H|]].
  - split; cbn; try discriminate; try contradiction.
    + exists "v"%char, []. split; [reflexivity|]. split; [left; vm_compute; lia|constructor].
    + apply is_one_of. vm_compute. reflexivity.
    + split; [contradiction|]. intros E. exfalso. revert E. apply not_one_of. vm_compute. reflexivity.
    + constructor.
    + intros ? ? [= <-] [= <-]. lia.
    + intros [? ?]. discriminate.
    + intros _ _. exists 5%Z. apply atoi_spec. vm_compute. reflexivity.
  - intros K. destruct (k_number _ _ _ K eq_refl) as (z & Hz & _). apply atoi_spec in Hz. discriminate Hz.
Qed.
(** Without a terminal: the default may break the limits, the pattern, the number of options. *)
Theorem C53_unchecked_default_refuted : exists L p1 p2 p3 s1 s2 s3,
  Forall (prompt_ok (fun re => pl_compiles L re = true)) [p1; p2; p3] /\
  asked (run_prompt L false p1 []) [] (Ok s1) /\ p_type p1 = lit "number" /\ ~ keeps L p1 s1 /\
  asked (run_prompt L false p2 []) [] (Ok s2) /\ p_type p2 = lit "input" /\ ~ keeps L p2 s2 /\
  asked (run_prompt L false p3 []) [] (Ok s3) /\ p_type p3 = lit "multiselect" /\ ~ keeps L p3 s3.
Proof.
  exists toyl, (pr "number" "50" [] [] "" (Some 1%Z) (Some 10%Z) None), (pr "input" "Web App" [] [] "web" None None None),
    (pr "multiselect" "" ["a"; "b"] ["a"; "b"; "c"] "" None (Some 1%Z) None), (lit "50"), (lit "Web App"), (lit "a,b").
  assert (Hn : name_ok (lit "v")) by (exists "v"%char, []; split; [reflexivity|]; split; [left; vm_compute; lia|constructor]).
  split; [|split; [apply asked_answer|split; [reflexivity|split; [|split; [apply asked_answer|split; [reflexivity|split; [|split; [apply asked_answer|split; [reflexivity|]]]]]]]]].
  - apply Forall_cons. split; [|apply Forall_cons; split; [|apply Forall_cons; split; [|constructor]]]; split; cbn; try discriminate; try contradiction; try exact Hn;
      try (apply is_one_of; vm_compute; reflexivity); try (constructor; fail); try (intros [? ?]; discriminate).
    + split; [contradiction|]. intros E. exfalso. revert E. apply not_one_of. vm_compute. reflexivity.
    + intros ? ? [= <-] [= <-]. lia.
    + intros _ _. exists 50%Z. apply atoi_spec. vm_compute. reflexivity.
    + split; [contradiction|]. intros E. exfalso. revert E. apply not_one_of. vm_compute. reflexivity.
    + intros _. split; reflexivity.
    + split; [|discriminate]. intros _. apply is_one_of. vm_compute. reflexivity.
    + constructor; [apply elem_of_list_here|]. constructor; [apply elem_of_list_further, elem_of_list_here|]. constructor.
  - intros K. destruct (k_number _ _ _ K eq_refl) as (z & Hz & [_ Hw]). apply atoi_spec in Hz. vm_compute in Hz. injection Hz as <-. specialize (Hw _ eq_refl). lia.
  - intros K. pose proof (k_input _ _ _ K eq_refl ltac:(discriminate)) as E. vm_compute in E. discriminate E.
  - intros K. destruct (k_multi _ _ _ K eq_refl) as (l & Hl & Hin & [_ Hw]). specialize (Hw _ eq_refl). destruct l as [|a [|b l]]; [discriminate Hl| |cbn [length] in Hw; lia].
    cbn [join_with] in Hl. apply Forall_cons in Hin as [Ha _]. rewrite <- Hl in Ha. revert Ha. cbn. rewrite !elem_of_cons, elem_of_nil. intros [E|[E|[E|[]]]]; discriminate E.
Qed.
(** An option with a comma in it: two different choices, one answer. *)
Theorem C64_comma_refuted : exists L p msg d1 d2 s, p_type p = lit "multiselect" /\ Forall (fun o => o <> []) (p_options p) /\
  asked (run_prompt L true p msg) d1 (Ok s) /\ asked (run_prompt L true p msg) d2 (Ok s) /\ d1 <> d2.
Proof.
  exists toyl, (pr "multiselect" "" [] ["a"; "b"; "a,b"] "" None None None), []. eexists _, _, _. split; [reflexivity|].
  split; [repeat (constructor; [discriminate|]); constructor|].
  split; [|split]; [apply (submitted_asked _ _ (Picked [lit "a"; lit "b"]) []); [|discriminate..|apply asked_answer]
                   |apply (submitted_asked _ _ (Picked [lit "a,b"]) []); [|discriminate..|apply asked_answer]|discriminate].
  - constructor; [|reflexivity]. cbn. apply sublist_skip, sublist_skip, sublist_cons, sublist_nil.
  - constructor; [|reflexivity]. cbn. apply sublist_cons, sublist_cons, sublist_skip, sublist_nil.
Qed.

Print Assumptions C52_declared_default.
Print Assumptions C52_consequences.
Print Assumptions C53_terminal_answers.
Print Assumptions C53_terminal_partial.
Print Assumptions C53_default_partial.
Print Assumptions C53_password_confirmed.
Print Assumptions C53_left_form_fails.
Print Assumptions C53_no_panic.
Print Assumptions C64_multiselect_read_back.
Print Assumptions C53_empty_number_refuted.
Print Assumptions C53_unchecked_default_refuted.
Print Assumptions C64_comma_refuted.
