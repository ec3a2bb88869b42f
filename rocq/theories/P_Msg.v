(** Theorems about what error messages say: C75. *)
From Verif Require Import Base Types_Model Utf8_Model Utf8_Spec Utf8_Proof Path_Model Valid_Model Include_Model Doc_Model Out_Model Out_Proof Loc_Model Cli_Model Cli_Spec Cli_Proof Msg_Model Msg_Proof P_Loc Vars_Proof Valid_Spec P_Valid.

(** ** Quoted names *)

Theorem C75_names_read_back is_print s t x y : quote is_print s ++ x = quote is_print t ++ y -> s = t /\ x = y.
Proof. apply quote_unique. Qed.

(** A character that moves nothing on a terminal: no control character of ASCII. *)
Definition visible (c : ascii) : Prop := 32 <= code c /\ code c <> 127.
Lemma visible_byte c : (32 <= byte c)%N -> byte c <> 127%N -> visible c.
Proof. unfold visible, byte, code, nat_of_ascii. lia. Qed.
Section Visible.
  Context (is_print : N -> bool) (HP : forall r, is_print r = true -> (32 <= r)%N /\ r <> 127%N).
  Lemma visible_hex k n : Forall visible (hex k n).
  Proof.
    revert n. induction k as [|k IH]; intros n; cbn [hex]; [constructor|]. apply Forall_app. split; [apply IH|]. constructor; [|constructor]. assert (Hm : (n mod 16 < 16)%N) by (apply N.mod_lt; discriminate). revert Hm. generalize (n mod 16)%N as m. intros m Hm. apply visible_byte; rewrite hex_digit_byte by exact Hm; destruct (N.ltb_spec m 10); lia.
  Qed.
  Lemma visible_encode r : (32 <= r)%N -> r <> 127%N -> Forall visible (encode_rune r).
  Proof.
    intros H1 H2. destruct (N.lt_ge_cases r 128) as [H|H].
    - rewrite encode_ascii by exact H. constructor; [|constructor]. apply visible_byte; rewrite byte_of by lia; assumption.
    - eapply Forall_impl; [apply encode_high; exact H|]. intros c Hc. apply visible_byte; cbn beta in *; lia.
  Qed.
  Lemma visible_quote s : Forall visible (quote is_print s).
  Proof.
    assert (Q : visible quote_char) by (vm_compute; lia). assert (B : visible backslash) by (vm_compute; lia).
    unfold quote. constructor; [exact Q|]. apply Forall_app. split; [|constructor; [exact Q|constructor]]. pose proof (units_each s) as H. induction H as [|u us Hu _ IH]; cbn [map concat]; [constructor|]. apply Forall_app. split; [|exact IH].
    assert (G : forall r, Forall visible (escape_rune is_print r)).
    { intros r. unfold escape_rune. destruct (N.eqb_spec r 34) as [->|_]; [constructor; [exact B|constructor; [exact Q|constructor]]|]. destruct (N.eqb_spec r 92) as [->|_]; [constructor; [exact B|constructor; [exact B|constructor]]|]. cbn [orb].
      destruct (is_print r) eqn:E; [apply visible_encode; apply HP; exact E|]. destruct (control_letter r) as [c|] eqn:Ec.
      - constructor; [exact B|]. constructor; [|constructor]. revert Ec. unfold control_letter. destruct r as [|p]; [discriminate|]. repeat (destruct p as [p|p|]; try discriminate); intros Ec; injection Ec as <-; vm_compute; lia.
      - destruct (_ || _); [|destruct (_ <? _)%N]; (apply Forall_cons_2; [exact B|]; apply Forall_cons_2; [split; [apply Nat.leb_le; reflexivity|discriminate]|]; apply visible_hex). }
    unfold escape_unit. destruct u.2 as [|b [|]]; try apply G. destruct (_ =? _)%N; [|apply G]. apply Forall_cons_2; [exact B|]. apply Forall_cons_2; [split; [apply Nat.leb_le; reflexivity|discriminate]|]. apply visible_hex.
  Qed.
End Visible.

(** ** Errors of a document *)

(** One error of each kind. *)
Definition item_kinds : list ierror :=
  [INotMap; ITwoKinds; INoKind; IDir; IPlatforms; IPlatform []; ILevel []; IOptions; IDefaults; IMin; IMax; IParSeq; IModeStr; IMode []; ILimit; ILimitNeg; IUnknownKey [];
   IParEmpty; IParPrompt; IParNested; IName []; INoType; IType []; INoMessage; INoOptions []; INotInOptions []; IMinMax 0 0; IRegexp; IOptionsFor; IDefaultsFor; IValidateFor; IConfirmFor; INotInteger []].
Definition item_kind (e : ierror) : nat :=
  match e with
  | INotMap => 0 | ITwoKinds => 1 | INoKind => 2 | IDir => 3 | IPlatforms => 4 | IPlatform _ => 5 | ILevel _ => 6 | IOptions => 7 | IDefaults => 8 | IMin => 9 | IMax => 10
  | IParSeq => 11 | IModeStr => 12 | IMode _ => 13 | ILimit => 14 | ILimitNeg => 15 | IUnknownKey _ => 16 | IParEmpty => 17 | IParPrompt => 18 | IParNested => 19
  | IName _ => 20 | INoType => 21 | IType _ => 22 | INoMessage => 23 | INoOptions _ => 24 | INotInOptions _ => 25 | IMinMax _ _ => 26 | IRegexp => 27 | IOptionsFor => 28
  | IDefaultsFor => 29 | IValidateFor => 30 | IConfirmFor => 31 | INotInteger _ => 32
  end.
Definition doc_kinds : list derror :=
  [DNotMap; DVarsMap; DVarsValue []; DEnvMap; DEnvValue []; DBool; DDir; DTasksMap; DIncludesMap; DInclude []; DDuplicate [] 0; DTaskMap []; DAliases []; DTaskDir []; DDeps []; DRunSeq []] ++
  map (DItem [] 0) item_kinds.
Definition doc_kind (e : derror) : nat :=
  match e with
  | DNotMap => 0 | DVarsMap => 1 | DVarsValue _ => 2 | DEnvMap => 3 | DEnvValue _ => 4 | DBool => 5 | DDir => 6 | DTasksMap => 7 | DIncludesMap => 8 | DInclude _ => 9
  | DDuplicate _ _ => 10 | DTaskMap _ => 11 | DAliases _ => 12 | DTaskDir _ => 13 | DDeps _ => 14 | DRunSeq _ => 15 | DItem _ _ e => 16 + item_kind e
  end.

(** What an error prints after its file; [located]: it has a line. *)
Definition tail_format (located : bool) (e : derror) : list tok :=
  match e with
  | DDuplicate _ _ => fmt ":%d: duplicate task %q (first defined at line %d)"
  | _ => fmt (if located then ":%d: " else ": ") ++ fmt (doc_format e)
  end.
Definition tail_args (x : extra) (l : nat) (e : derror) : list arg :=
  match e with
  | DDuplicate name original => [num l; AStr name; num original]
  | _ => (if 0 <? l then [num l] else []) ++ doc_args x e
  end.

Lemma doc_fits x e : fits (fmt (doc_format e)) (doc_args x e) = true.
Proof. destruct e; try reflexivity. destruct e; reflexivity. Qed.
Lemma tail_fits x l e : fits (tail_format (0 <? l) e) (tail_args x l e) = true.
Proof.
  assert (G : fits (fmt (if 0 <? l then ":%d: " else ": ") ++ fmt (doc_format e)) ((if 0 <? l then [num l] else []) ++ doc_args x e) = true).
  { apply fits_app; [destruct (0 <? l); reflexivity|apply doc_fits]. }
  destruct e; try exact G. reflexivity.
Qed.
Lemma itoa_num l : itoa_z (Z.of_nat l) = itoa l.
Proof. unfold itoa_z. destruct (Z.ltb_spec (Z.of_nat l) 0); [lia|]. rewrite Zabs2Nat.id. reflexivity. Qed.
Section Document.
  Context (is_print : N -> bool) (cwd : option str).
  Notation shown := (doc_error is_print cwd).

  Lemma doc_error_tail x p l e : caused x e = false -> shown x p (l, e) = relative_path cwd p ++ sprintf is_print (tail_format (0 <? l) e) (tail_args x l e).
  Proof.
    intros Hc. assert (G : forall e', e' = e -> (forall n o, e' <> DDuplicate n o) -> parse_error is_print cwd p l 0 (sprintf is_print (fmt (doc_format e')) (doc_args x e')) None =
      relative_path cwd p ++ sprintf is_print (fmt (if 0 <? l then ":%d: " else ": ") ++ fmt (doc_format e')) ((if 0 <? l then [num l] else []) ++ doc_args x e')).
    { intros e' _ Hd. rewrite sprintf_app by (destruct (0 <? l); reflexivity). unfold parse_error, format_location. generalize (sprintf is_print (fmt (doc_format e')) (doc_args x e')) as m. intros m.
      destruct (0 <? l); [|cbn; rewrite app_nil_r; reflexivity]. cbn [Nat.ltb Nat.leb]. unfold fmt, num. cbn [lit list_ascii_of_string fmt_of sprintf app]. rewrite app_nil_r, itoa_num, <- !app_assoc. reflexivity. }
    unfold doc_error. cbn [fst snd]. destruct e; rewrite ?Hc; try (apply (G _ eq_refl); discriminate). reflexivity.
  Qed.

  (** Where the YAML library could not read a value, it is the library's text that is
      shown, after the file and the line. *)
  Inductive unreadable (x : extra) : derror -> Prop :=
  | un_bool : x_scalar x = true -> unreadable x DBool
  | un_include s : unreadable x (DInclude s)
  | un_aliases s : unreadable x (DAliases s)
  | un_deps s : unreadable x (DDeps s)
  | un_item t i e : e ∈ [IPlatforms; IOptions; IDefaults; IMin; IMax; ILimit] -> unreadable x (DItem t i e).
  Theorem C75_library_text x p l e : unreadable x e ->
    shown x p (l, e) = relative_path cwd p ++ (if 0 <? l then ":"%char :: itoa l else []) ++ lit ": " ++ x_decode x.
  Proof.
    intros H. assert (G : caused x e = true).
    { destruct H as [H|s|s|s|t i e H]; try reflexivity; [exact H|]. repeat (apply elem_of_cons in H as [->|H]; [reflexivity|]). apply elem_of_nil in H. contradiction. }
    assert (E : shown x p (l, e) = parse_error is_print cwd p l 0 (sprintf is_print (fmt (doc_format e)) (doc_args x e)) (Some (x_decode x))).
    { destruct H; unfold doc_error; cbn [fst snd]; rewrite G; reflexivity. }
    rewrite E. unfold parse_error, format_location. cbn [Nat.ltb Nat.leb]. unfold fmt. generalize (relative_path cwd p) as rp, (x_decode x) as d. intros rp d.
    destruct l as [|l]; cbn [Nat.ltb Nat.leb lit list_ascii_of_string fmt_of sprintf app]; rewrite app_nil_r, <- ?app_assoc; reflexivity.
  Qed.

  (** All formats can be told apart and read back. *)
  Lemma kinds_apart : forallb (fun i => forallb (fun j => match doc_kinds !! i, doc_kinds !! j with
    | Some e, Some e' => (i =? j) || forallb (fun b => forallb (fun b' => apart (tail_format b e) (tail_format b' e')) [true; false]) [true; false]
    | _, _ => true end) (seq 0 49)) (seq 0 49) = true.
  Proof. vm_compute. reflexivity. Qed.
  Lemma kinds_readable : forallb (fun e => forallb (fun b => readable (tail_format b e)) [true; false]) doc_kinds = true.
  Proof. vm_compute. reflexivity. Qed.
  Lemma kind_spec e : doc_kind e < 49 /\ exists e0, doc_kinds !! doc_kind e = Some e0 /\ forall b, tail_format b e = tail_format b e0.
  Proof.
    destruct e; try (split; [cbn; lia|eexists; split; [reflexivity|intros; reflexivity]]).
    destruct e; (split; [cbn; lia|eexists; split; [reflexivity|intros; reflexivity]]).
  Qed.
  Lemma located_apart b b' e : (forall n o, e <> DDuplicate n o) -> b <> b' -> apart (tail_format b e) (tail_format b' e) = true.
  Proof. intros H Hb. destruct e; try (destruct b, b'; try contradiction; reflexivity). exfalso. eapply H. reflexivity. Qed.

  Lemma tails_differ x x' l l' e e' : sprintf is_print (tail_format (0 <? l) e) (tail_args x l e) = sprintf is_print (tail_format (0 <? l') e') (tail_args x' l' e') -> l = l' /\ e = e'.
  Proof.
    intros E. destruct (kind_spec e) as (Hk & e0 & He0 & Hf), (kind_spec e') as (Hk' & e0' & He0' & Hf').
    assert (K : doc_kind e = doc_kind e').
    { pose proof kinds_apart as H. rewrite forallb_forall in H. specialize (H (doc_kind e) ltac:(apply in_seq; lia)). rewrite forallb_forall in H. specialize (H (doc_kind e') ltac:(apply in_seq; lia)). rewrite He0, He0' in H.
      apply orb_true_iff in H as [H|H]; [apply Nat.eqb_eq; exact H|exfalso]. rewrite forallb_forall in H. specialize (H (0 <? l) ltac:(destruct (0 <? l); simpl; auto)). rewrite forallb_forall in H. specialize (H (0 <? l') ltac:(destruct (0 <? l'); simpl; auto)).
      rewrite <- Hf, <- Hf' in H. eapply apart_spec; [exact H|apply (tail_fits x)|apply (tail_fits x')|exact E]. }
    rewrite <- K, He0 in He0'. injection He0' as <-.
    assert (Hb : (exists n o, e0 = DDuplicate n o) \/ (0 <? l) = (0 <? l')).
    { destruct (decide ((0 <? l) = (0 <? l'))) as [->|Hb]; [right; reflexivity|].
      destruct (match e0 with DDuplicate _ _ => true | _ => false end) eqn:Ed; [destruct e0; try discriminate Ed; eauto|]. exfalso. eapply apart_spec; [|apply (tail_fits x l e)|apply (tail_fits x' l' e')|exact E].
      rewrite Hf, Hf'. apply located_apart; [|exact Hb]. intros n o ->. discriminate Ed. }
    assert (F : tail_format (0 <? l) e = tail_format (0 <? l') e') by (rewrite Hf, Hf'; destruct Hb as [(n & o & ->) | ->]; reflexivity).
    assert (A : tail_args x l e = tail_args x' l' e').
    { apply (read_back is_print (tail_format (0 <? l) e)).
      - rewrite Hf. pose proof kinds_readable as H. rewrite forallb_forall in H. apply elem_of_list_lookup_2, elem_of_list_In in He0. apply H in He0. rewrite forallb_forall in He0. apply He0. destruct (0 <? l); simpl; auto.
      - apply tail_fits.
      - rewrite F. apply tail_fits.
      - rewrite F at 2. exact E. }
    assert (Hn : (exists n o, e = DDuplicate n o) \/ (0 <? l) = (0 <? l')).
    { destruct Hb as [(n & o & ->)|Hb]; [left|right; exact Hb]. apply (f_equal (fun o => match o with Some (DDuplicate _ _) => true | _ => false end)) in He0. destruct e; try discriminate He0; [eauto|]. destruct e; discriminate He0. }
    clear E F Hf Hf' He0 Hk Hk' Hb e0. destruct Hn as [(n & o & ->)|Hb].
    - destruct e' as [| | | | | | | | | |n' o'| | | | | |]; try discriminate K. unfold tail_args, num in A. injection A as A1 A2 A3. subst n'. split; [lia|f_equal; lia].
    - assert (B : (if 0 <? l then [num l] else []) ++ doc_args x e = (if 0 <? l' then [num l'] else []) ++ doc_args x' e' -> l = l' /\ doc_args x e = doc_args x' e').
      { rewrite <- Hb. intros B. destruct (Nat.ltb_spec 0 l), (Nat.ltb_spec 0 l'); try discriminate Hb.
        - unfold num in B. injection B as B1 B2. split; [lia|exact B2].
        - split; [lia|exact B]. }
      destruct e; destruct e'; try discriminate K.
      all: try (apply B in A as [-> A]; split; [reflexivity|]).
      all: try (injection A; intros; subst; reflexivity).
      all: try reflexivity.
      all: try (unfold tail_args, num in A; injection A as A1 A2 A3; subst; split; [lia|f_equal; lia]).
      unfold doc_args, num in A. injection A as -> A2 A3. assert (index = index0) as -> by lia. f_equal. clear A2.
      destruct e, e0; try discriminate K; try reflexivity; unfold item_args in A3; injection A3; intros; subst; reflexivity.
  Qed.

  (** Two errors of one file that print the same are the same error at the same line;
      neither has a cause. *)
  Theorem C75_document_errors_differ x x' p l l' e e' : caused x e = false -> caused x' e' = false -> shown x p (l, e) = shown x' p (l', e') -> l = l' /\ e = e'.
  Proof.
    intros Hc Hc' E. rewrite !doc_error_tail in E by assumption. apply app_inv_head in E. apply tails_differ in E. exact E.
  Qed.
  (** The same for two files whose printed names have no colon: the file is also the same. *)
  Lemma first_colon (a b x y : str) : ":"%char ∉ a -> ":"%char ∉ b -> a ++ ":"%char :: x = b ++ ":"%char :: y -> a = b /\ x = y.
  Proof.
    revert b. induction a as [|c a IH]; intros b Ha Hb E; destruct b as [|d b]; cbn [app] in E.
    - injection E as ->. auto.
    - injection E as <- _. exfalso. apply Hb. left.
    - injection E as -> _. exfalso. apply Ha. left.
    - injection E as -> E2. apply IH in E2 as [-> ->]; [auto|intros H; apply Ha; right; exact H|intros H; apply Hb; right; exact H].
  Qed.
  Lemma tail_colon b e : exists f, tail_format b e = TC ":"%char :: f.
  Proof. destruct e, b; eexists; reflexivity. Qed.
  Theorem C75_files_differ x x' p p' l l' e e' : ":"%char ∉ relative_path cwd p -> ":"%char ∉ relative_path cwd p' -> caused x e = false -> caused x' e' = false ->
    shown x p (l, e) = shown x' p' (l', e') -> relative_path cwd p = relative_path cwd p' /\ l = l' /\ e = e'.
  Proof.
    intros Hp Hp' Hc Hc' E. rewrite !doc_error_tail in E by assumption. destruct (tail_colon (0 <? l) e) as [f Hf], (tail_colon (0 <? l') e') as [f' Hf'].
    assert (T : relative_path cwd p = relative_path cwd p' /\ sprintf is_print (tail_format (0 <? l) e) (tail_args x l e) = sprintf is_print (tail_format (0 <? l') e') (tail_args x' l' e')).
    { rewrite Hf, Hf' in E |- *. cbn [sprintf] in E |- *. apply first_colon in E as [-> ->]; auto. }
    destruct T as [T1 T2]. apply tails_differ in T2. auto.
  Qed.

  (** With a cause the message is lost: the task, the item and the key are not shown. *)
  Theorem C75_cause_refuted : exists x t t' i i' e e', t <> t' /\ i <> i' /\ e <> e' /\ forall p l, shown x p (l, DItem t i e) = shown x p (l, DItem t' i' e').
  Proof. exists (Extra [] [] (lit "cannot unmarshal") true), (lit "build"), (lit "test"), 0, 1, IMin, IMax. repeat split; try discriminate. Qed.

  (** No text of the Babfile gets into a message but quoted, so it stays on one line. The
      text of a bad pattern is the exception. *)
  Lemma visible_digits n : Forall visible (itoa n).
  Proof. eapply Forall_impl; [apply itoa_digits|]. intros c Hc. unfold digitb in Hc. apply andb_true_iff in Hc as [H1 H2]. apply Nat.leb_le in H1, H2. split; lia. Qed.
  Lemma visible_num z : Forall visible (itoa_z z).
  Proof. unfold itoa_z. destruct (z <? 0)%Z; [apply Forall_cons_2; [split; [apply Nat.leb_le; reflexivity|discriminate]|]|]; apply visible_digits. Qed.
  Definition visibleb (c : ascii) : bool := (32 <=? code c) && negb (code c =? 127).
  Lemma visibleb_spec c : visibleb c = true -> visible c.
  Proof. unfold visibleb, visible. intros H. apply andb_true_iff in H as [H1 H2]. apply Nat.leb_le in H1. apply negb_true_iff, Nat.eqb_neq in H2. auto. Qed.
  Definition plain_format (f : list tok) : bool := forallb (fun t => match t with TC c => visibleb c | TS => false | _ => true end) f.
  Lemma visible_sprintf f args : (forall r, is_print r = true -> (32 <= r)%N /\ r <> 127%N) -> plain_format f = true -> Forall visible (sprintf is_print f args).
  Proof.
    intros HP. revert args. induction f as [|t f IH]; intros args Hf; cbn [plain_format forallb] in Hf; [constructor|]. apply andb_true_iff in Hf as [H1 H2].
    destruct t as [c| | |]; cbn [sprintf].
    - apply Forall_cons_2; [apply visibleb_spec; exact H1|apply IH; exact H2].
    - destruct args as [|[s|z] args]; [constructor| |constructor]. apply (Forall_app_2 visible (quote is_print s)); [apply visible_quote; exact HP|apply IH; exact H2].
    - destruct args as [|[s|z] args]; [constructor|constructor|]. apply Forall_app_2; [apply visible_num|apply IH; exact H2].
    - discriminate H1.
  Qed.
  Theorem C75_one_line x p l e : (forall r, is_print r = true -> (32 <= r)%N /\ r <> 127%N) -> caused x e = false -> (forall t i, e <> DItem t i IRegexp) ->
    Forall visible (relative_path cwd p) -> Forall visible (shown x p (l, e)).
  Proof.
    intros HP Hc He Hp. rewrite doc_error_tail by exact Hc. apply Forall_app_2; [exact Hp|]. apply visible_sprintf; [exact HP|].
    destruct (0 <? l), e; try reflexivity; destruct e; try reflexivity; exfalso; eapply He; reflexivity.
  Qed.
End Document.

(** ** Errors of all tasks together *)

Section Validation.
  Context (is_print : N -> bool) (cwd : option str) (lower : str -> str).

  (** What two errors that print the same have in common: everything but the name of the
      task with the reference, which is not printed, and of chains what is printed of them. *)
  Definition same_report (h h' : heap) (e e' : verr) : Prop :=
    match e, e' with
    | VNotFound l n _, VNotFound l' n' _ => l = l' /\ n = n'
    | VCircular c _, VCircular c' _ => join_with (lit " → ") (sl_read h c) = join_with (lit " → ") (sl_read h' c')
    | VAliasConflict _ _ _, VAliasConflict _ _ _ => e = e'
    | VDuplicateAlias _ _ _ _, VDuplicateAlias _ _ _ _ => e = e'
    | _, _ => False
    end.
  Definition vtail (e : verr) : list tok :=
    match e with
    | VNotFound l _ _ => fmt (if 0 <? l then ":%d: task %q not found%s" else ": task %q not found%s")
    | VCircular _ _ => fmt ": circular dependency: %s"
    | VAliasConflict _ _ _ => fmt ":%d: alias %q for task %q conflicts with existing task name"
    | VDuplicateAlias _ _ _ _ => fmt ":%d: alias %q for task %q already defined by task %q at line %d"
    end.
  Definition vargs (h : heap) (tasks : taskmap) (avail : list str) (e : verr) : list arg :=
    match e with
    | VNotFound l n _ => (if 0 <? l then [num l] else []) ++ [AStr n; AStr (did_you_mean is_print lower n avail)]
    | VCircular c _ => [AStr (join_with (lit " → ") (sl_read h c))]
    | VAliasConflict l a n => [num l; AStr a; AStr n]
    | VDuplicateAlias l a n o => [num l; AStr a; AStr n; AStr o; num (match tasks !! o with Some t => t_line t | None => 0 end)]
    end.
  Lemma valid_error_tail h p tasks avail e : p <> [] -> valid_error is_print cwd lower h p tasks avail e = relative_path cwd p ++ sprintf is_print (vtail e) (vargs h tasks avail e).
  Proof.
    intros Hp. destruct p as [|c p]; [contradiction|]. set (q := c :: p). destruct e as [l n r|ch now|l a n|l a n o]; cbn [valid_error].
    - unfold not_found_error, q. fold q. cbn [vtail vargs]. destruct (0 <? l).
      + cbn -[quote itoa_z did_you_mean relative_path num]. unfold num. cbn -[quote itoa_z did_you_mean relative_path]. do 4 (rewrite <- ?app_assoc; cbn [app]). reflexivity.
      + cbn -[quote itoa_z did_you_mean relative_path num]. do 4 (rewrite <- ?app_assoc; cbn [app]). reflexivity.
    - unfold circular_error, q. fold q. reflexivity.
    - reflexivity.
    - reflexivity.
  Qed.
  Theorem C75_task_errors_differ h h' p tasks tasks' avail avail' e e' : p <> [] ->
    valid_error is_print cwd lower h p tasks avail e = valid_error is_print cwd lower h' p tasks' avail' e' -> same_report h h' e e'.
  Proof.
    intros Hp E. rewrite !valid_error_tail in E by exact Hp. apply app_inv_head in E.
    assert (Ft : forall h t a e, fits (vtail e) (vargs h t a e) = true) by (intros ? ? ? []; cbn [vtail vargs]; try destruct (0 <? line); reflexivity).
    assert (Rd : forall e, readable (vtail e) = true) by (intros []; cbn [vtail]; try destruct (0 <? line); vm_compute; reflexivity).
    assert (Ap : vtail e = vtail e' \/ apart (vtail e) (vtail e') = true) by (destruct e, e'; cbn [vtail]; repeat match goal with |- context [0 <? ?l] => destruct (0 <? l) end; vm_compute; auto).
    destruct Ap as [F|F]; [|exfalso; exact (apart_spec _ _ _ _ _ F (Ft _ _ _ _) (Ft _ _ _ _) E)].
    assert (A : vargs h tasks avail e = vargs h' tasks' avail' e').
    { apply (read_back is_print (vtail e)); [apply Rd|apply Ft|rewrite F; apply Ft|rewrite F at 2; exact E]. }
    destruct e as [l n r|ch now|l a n|l a n o], e' as [l' n' r'|ch' now'|l' a' n'|l' a' n' o']; cbn [vargs same_report] in *.
    all: try (cbn [vtail] in F; repeat match type of F with context [0 <? ?l] => destruct (0 <? l) end; vm_compute in F; discriminate F).
    - destruct (Nat.ltb_spec 0 l), (Nat.ltb_spec 0 l'); try discriminate A; unfold num in A; cbn [app] in A.
      + injection A as A1 A2 _. split; [lia|exact A2].
      + injection A as A2 _. split; [lia|exact A2].
    - injection A as A. exact A.
    - unfold num in A. injection A as A1 -> ->. f_equal. lia.
    - unfold num in A. injection A as A1 -> -> -> _. f_equal. lia.
  Qed.

  (** A chain can be read back when no name in it contains the arrow. *)
  Definition arrow_char : str := encode_rune 8594.
  Definition has_arrow (s : str) : Prop := exists a b, s = a ++ arrow_char ++ b.
  Lemma arrow_splits (a b x y : str) : ~ has_arrow a -> ~ has_arrow b -> a ++ arrow ++ x = b ++ arrow ++ y -> a = b /\ x = y.
  Proof.
    assert (G : forall a b x y, ~ has_arrow a -> length b <= length a -> a ++ arrow ++ x = b ++ arrow ++ y -> a = b).
    { clear a b x y. intros a b x y Ha Hl E.
      assert (exists k, a = b ++ k) as [k ->].
      { exists (drop (length b) a). rewrite <- (take_drop (length b) a) at 1. f_equal. apply (f_equal (take (length b))) in E. rewrite take_app_le, take_app in E by exact Hl. exact E. }
      rewrite <- app_assoc in E. apply app_inv_head in E. destruct k as [|k0 [|k1 [|k2 [|k3 k]]]]; [rewrite app_nil_r; reflexivity|..]; exfalso; unfold arrow in E; cbn in E; try (injection E; intros; subst; discriminate).
      injection E as -> -> -> -> _. apply Ha. exists (b ++ [" "%char]), k. rewrite <- app_assoc. reflexivity. }
    intros Ha Hb E. assert (a = b) as ->; [|apply app_inv_head in E; apply app_inv_head in E; auto].
    destruct (Nat.le_ge_cases (length b) (length a)) as [H|H]; [exact (G a b x y Ha H E)|symmetry; symmetry in E; exact (G b a y x Hb H E)].
  Qed.
  Theorem C75_chain_read_back c c' : c <> [] -> c' <> [] -> Forall (fun n => ~ has_arrow n) c -> Forall (fun n => ~ has_arrow n) c' -> join_with (lit " → ") c = join_with (lit " → ") c' -> c = c'.
  Proof.
    intros H0 H0' Hc. revert H0 c' H0'. induction Hc as [|n c Hn Hc IH]; intros H0 c' H0' Hc' E; [contradiction|]. destruct Hc' as [|n' c' Hn' Hc']; [contradiction|].
    destruct c as [|m c], c' as [|m' c'].
    - cbn [join_with] in E. subst. reflexivity.
    - cbn [join_with] in E. exfalso. apply Hn. rewrite E. exists (n' ++ [" "%char]), (" "%char :: join_with arrow (m' :: c')). unfold arrow, arrow_char. rewrite <- !app_assoc. reflexivity.
    - cbn [join_with] in E. exfalso. apply Hn'. rewrite <- E. exists (n ++ [" "%char]), (" "%char :: join_with arrow (m :: c)). unfold arrow, arrow_char. rewrite <- !app_assoc. reflexivity.
    - change (n ++ arrow ++ join_with arrow (m :: c) = n' ++ arrow ++ join_with arrow (m' :: c')) in E. apply arrow_splits in E as [-> E]; [|assumption|assumption]. f_equal. apply IH; [discriminate|discriminate|exact Hc'|exact E].
  Qed.

  (** The unknown task is named, with the closest of the tasks there are, if one is close. *)
  Definition names_similar (name : str) (available : list str) (suffix : str) : Prop :=
    (exists c, best_of lower name available c /\ c <> [] /\ suffix = lit " (did you mean " ++ quote is_print c ++ lit "?)") \/
    (suffix = [] /\ forall c, best_of lower name available c -> c = []).
  Lemma names_similar_here name available : names_similar name available (did_you_mean is_print lower name available).
  Proof.
    unfold did_you_mean. destruct (find_similar_spec lower name available) as [H|[E H]].
    - destruct (find_similar lower name available) as [|c0 c] eqn:E.
      + right. split; [reflexivity|]. intros d Hd. exact (best_unique lower name available d [] Hd H).
      + left. exists (c0 :: c). split; [exact H|]. split; [discriminate|]. reflexivity.
    - rewrite E. right. split; [reflexivity|]. intros d (Hd & k & Hk & H50 & _). specialize (H d k Hd Hk). lia.
  Qed.
  (** Where the message says it is: the file and, if it is known, the line. *)
  Inductive told (p : str) : nat -> str -> Prop :=
  | told_nowhere l : p = [] -> told p l []
  | told_line l : p <> [] -> 0 < l -> told p l (relative_path cwd p ++ ":"%char :: itoa l ++ lit ": ")
  | told_file : p <> [] -> told p 0 (relative_path cwd p ++ lit ": ")
  | told_no_name : relative_path cwd p = [] -> told p 0 [].
  Theorem C75_suggestion h p tasks available l name r : exists loc suffix, told p l loc /\ names_similar name available suffix /\
    valid_error is_print cwd lower h p tasks available (VNotFound l name r) = loc ++ lit "task " ++ quote is_print name ++ lit " not found" ++ suffix.
  Proof.
    cbn [valid_error]. unfold not_found_error. cbv zeta. match goal with |- context [AStr (match p with [] => [] | _ :: _ => ?x end)] => set (loc := match p with [] => [] | _ :: _ => x end) end.
    exists loc, (did_you_mean is_print lower name available). split.
    { subst loc. destruct p as [|c0 p0] eqn:Ep; [constructor; reflexivity|]. rewrite <- Ep. destruct l as [|l]; [apply told_file; subst; discriminate|].
      replace (sprintf _ _ _) with (relative_path cwd p ++ ":"%char :: itoa (S l) ++ lit ": "); [apply told_line; [subst; discriminate|lia]|].
      unfold fmt, num. generalize (relative_path cwd p) as rp. intros rp.
      cbn [lit list_ascii_of_string fmt_of sprintf app]. rewrite itoa_num. reflexivity. }
    split; [apply names_similar_here|].
    generalize (did_you_mean is_print lower name available) as sfx. intros sfx. clearbody loc. unfold fmt. cbn [lit list_ascii_of_string fmt_of sprintf app]. rewrite app_nil_r. reflexivity.
  Qed.
  Lemma var_location_told p l : told p l (match var_location is_print cwd p l with [] => [] | loc => loc ++ lit ": " end).
  Proof.
    unfold var_location. destruct p as [|c0 p0] eqn:Ep; [constructor; reflexivity|]. rewrite <- Ep. destruct l as [|l].
    - cbn [Nat.ltb Nat.leb]. destruct (relative_path cwd p) as [|c1 p1] eqn:Er; [apply told_no_name; exact Er|]. rewrite <- Er. apply told_file. subst; discriminate.
    - replace (sprintf _ _ _) with (relative_path cwd p ++ ":"%char :: itoa (S l)).
      + assert (H : told p (S l) ((relative_path cwd p ++ ":"%char :: itoa (S l)) ++ lit ": ")) by (rewrite <- app_assoc; apply told_line; [subst; discriminate|lia]).
        cbn [Nat.ltb Nat.leb]. destruct (relative_path cwd p ++ ":"%char :: itoa (S l)) eqn:E; [destruct (relative_path cwd p); discriminate E|exact H].
      + unfold fmt, num. generalize (relative_path cwd p) as rp. intros rp.
        cbn [lit list_ascii_of_string fmt_of sprintf app]. rewrite app_nil_r, itoa_num. reflexivity.
  Qed.
  (** The same for an unknown variable, which is not quoted. *)
  Theorem C75_variable_suggestion p l name available : exists loc suffix, told p l loc /\ names_similar name available suffix /\
    var_not_found_error is_print cwd lower p l name available = loc ++ lit "undefined variable: " ++ name ++ suffix.
  Proof.
    pose proof (var_location_told p l) as T.
    unfold var_not_found_error. destruct (var_location is_print cwd p l) as [|c loc].
    - exists [], (did_you_mean is_print lower name available). split; [exact T|]. split; [apply names_similar_here|]. generalize (did_you_mean is_print lower name available) as sfx. intros sfx. unfold fmt. cbn [lit list_ascii_of_string fmt_of sprintf app]. rewrite app_nil_r. reflexivity.
    - exists ((c :: loc) ++ lit ": "), (did_you_mean is_print lower name available). split; [exact T|]. split; [apply names_similar_here|]. generalize (c :: loc) as lo, (did_you_mean is_print lower name available) as sfx. intros lo sfx. unfold fmt. cbn [lit list_ascii_of_string fmt_of sprintf app]. rewrite app_nil_r, <- app_assoc. reflexivity.
  Qed.
  (** A cycle of variables: all of it is shown, name by name. *)
  Inductive cycle_text (name : str) : list str -> str -> Prop :=
  | ct_alone : cycle_text name [] name
  | ct_last x : cycle_text name [x] x
  | ct_next x y l s : cycle_text name (y :: l) s -> cycle_text name (x :: y :: l) (x ++ " "%char :: encode_rune 8594 ++ " "%char :: s).
  Theorem C75_variable_cycle p l name chain : exists loc shown, told p l loc /\ cycle_text name chain shown /\
    var_cycle_error is_print cwd p l name chain = loc ++ lit "circular variable reference: " ++ shown.
  Proof.
    pose proof (var_location_told p l) as T. set (body := match chain with [] => name | _ => join_with arrow chain end).
    assert (B : cycle_text name chain body).
    { subst body. destruct chain as [|x chain]; [constructor|]. revert x. induction chain as [|y chain IH]; intros x; [constructor|].
      change (join_with arrow (x :: y :: chain)) with (x ++ arrow ++ join_with arrow (y :: chain)).
      replace (x ++ arrow ++ join_with arrow (y :: chain)) with (x ++ " "%char :: encode_rune 8594 ++ " "%char :: join_with arrow (y :: chain)); [constructor; apply IH|].
      generalize (join_with arrow (y :: chain)) as s. intros s. reflexivity. }
    assert (M : match chain with [] => sprintf is_print (fmt "circular variable reference: %s") [AStr name]
                | _ => sprintf is_print (fmt "circular variable reference: %s") [AStr (join_with arrow chain)] end = lit "circular variable reference: " ++ body).
    { subst body. destruct chain as [|x chain]; [|generalize (join_with arrow (x :: chain)) as s; intros s]; unfold fmt; cbn [lit list_ascii_of_string fmt_of sprintf app]; rewrite app_nil_r; reflexivity. }
    unfold var_cycle_error. cbv zeta. rewrite M. destruct (var_location is_print cwd p l) as [|c loc].
    - exists [], body. auto.
    - exists ((c :: loc) ++ lit ": "), body. split; [exact T|]. split; [exact B|]. generalize (c :: loc) as lo. intros lo. unfold fmt.
      cbn [lit list_ascii_of_string fmt_of sprintf app]. rewrite app_nil_r, <- app_assoc. reflexivity.
  Qed.
End Validation.

(** With an arrow in a name, two cycles in two task files print the same. *)
Definition arrow_name : str := lit "a" ++ arrow ++ lit "a".
Definition self_cycle : taskmap := {[ arrow_name := mk_task [arrow_name] [] ]}.
Definition two_cycle : taskmap := {[ lit "a" := mk_task [arrow_name] []; arrow_name := mk_task [lit "a"] [] ]}.
Theorem C75_chain_refuted : exists tasks tasks' order order' c c', iteration_order tasks order /\ iteration_order tasks' order' /\
  reported_chains go_grow tasks order = [c] /\ reported_chains go_grow tasks' order' = [c'] /\ c <> c' /\ forall is_print cwd p, circular_error is_print cwd p (lit "dependency") c = circular_error is_print cwd p (lit "dependency") c'.
Proof.
  exists self_cycle, two_cycle, [arrow_name], [lit "a"; arrow_name], [arrow_name; arrow_name], [lit "a"; arrow_name; lit "a"].
  split; [apply (bool_decide_unpack _); vm_compute; exact I|]. split; [apply (bool_decide_unpack _); vm_compute; exact I|].
  split; [vm_compute; reflexivity|]. split; [vm_compute; reflexivity|]. split; [discriminate|]. intros is_print cwd p. unfold circular_error. cbv zeta. replace (join_with arrow [lit "a"; arrow_name; lit "a"]) with (join_with arrow [arrow_name; arrow_name]) by (vm_compute; reflexivity). reflexivity.
Qed.

(** ** Concrete cases *)

(** The printable characters of ASCII and everything above them but the soft hyphen. *)
Definition printable (r : N) : bool := ((32 <=? r) && (r <? 127) || (160 <? r) && negb (r =? 173))%N.
Example C75_printable r : printable r = true -> (32 <= r)%N /\ r <> 127%N.
Proof. unfold printable. intros H. apply orb_true_iff in H as [H|H]; apply andb_true_iff in H as [H1 H2]; [apply N.leb_le in H1; apply N.ltb_lt in H2|apply N.ltb_lt in H1]; lia. Qed.
Notation dq := [ascii_of_nat 34].
Notation bs := [ascii_of_nat 92].
Example C75_quoted : quote printable (lit "a" ++ dq ++ bs ++ [ascii_of_nat 10; ascii_of_nat 27; ascii_of_nat 255] ++ encode_rune 233) =
  dq ++ lit "a" ++ bs ++ dq ++ bs ++ bs ++ bs ++ lit "n" ++ bs ++ lit "x1b" ++ bs ++ lit "xff" ++ encode_rune 233 ++ dq.
Proof. vm_compute. reflexivity. Qed.
Definition no_extra : extra := Extra (lit "env") (lit "missing )") (lit "yaml: oops") true.
Example C75_met :
  doc_error printable (Some (lit "/home/u")) no_extra (lit "/home/u/Babfile.yml") (12, DItem (lit "build") 3 (IMode (lit "tabs"))) =
    lit "Babfile.yml:12: task " ++ dq ++ lit "build" ++ dq ++ lit ": run[3]: invalid mode " ++ dq ++ lit "tabs" ++ dq ++ lit ", must be one of: interleaved, grouped" /\
  doc_error printable (Some (lit "/home/u")) no_extra (lit "/srv/b.yml") (7, DItem (lit "ask") 0 (IMinMax 10 (-2))) =
    lit "/srv/b.yml:7: task " ++ dq ++ lit "ask" ++ dq ++ lit ": run[0]: prompt " ++ dq ++ lit "env" ++ dq ++ lit ": min (10) cannot be greater than max (-2)" /\
  doc_error printable None no_extra (lit "/b.yml") (7, DItem (lit "ask") 0 IMin) = lit "/b.yml:7: yaml: oops" /\
  caused no_extra (DItem (lit "build") 3 (IMode (lit "tabs"))) = false /\ ":"%char ∉ relative_path (Some (lit "/home/u")) (lit "/home/u/Babfile.yml").
Proof. split; [vm_compute; reflexivity|]. split; [vm_compute; reflexivity|]. split; [vm_compute; reflexivity|]. split; [reflexivity|]. apply (bool_decide_unpack _). vm_compute. exact I. Qed.
Example C75_suggests :
  valid_error printable None (fun s => s) heap0 (lit "/b.yml") ∅ [lit "build"; lit "test"] (VNotFound 4 (lit "biuld") (lit "all")) =
    lit "/b.yml:4: task " ++ dq ++ lit "biuld" ++ dq ++ lit " not found (did you mean " ++ dq ++ lit "build" ++ dq ++ lit "?)" /\
  valid_error printable None (fun s => s) heap0 (lit "/b.yml") ∅ [lit "build"; lit "test"] (VNotFound 0 (lit "zzz") (lit "all")) =
    lit "/b.yml: task " ++ dq ++ lit "zzz" ++ dq ++ lit " not found".
Proof. split; vm_compute; reflexivity. Qed.
Example C75_variables_met :
  var_not_found_error printable None (fun s => s) (lit "/b.yml") 1 (lit "nmae") [lit "name"] =
    lit "/b.yml:1: undefined variable: nmae (did you mean " ++ dq ++ lit "name" ++ dq ++ lit "?)" /\
  var_cycle_error printable None (lit "/b.yml") 3 (lit "a") [lit "a"; lit "b"; lit "a"] =
    lit "/b.yml:3: circular variable reference: a" ++ arrow ++ lit "b" ++ arrow ++ lit "a" /\
  unreadable no_extra (DItem (lit "ask") 0 IMin).
Proof. split; [vm_compute; reflexivity|]. split; [vm_compute; reflexivity|]. constructor. do 3 right. left. Qed.
Example C75_chain_met : Forall (fun n => ~ has_arrow n) [lit "a"; lit "b-c"; lit "a"].
Proof.
  assert (G : forall s, ascii_of_nat 226 ∉ s -> ~ has_arrow s).
  { intros s Hs (a & b & ->). apply Hs, elem_of_app. right. left. }
  repeat (apply Forall_cons_2; [apply G; apply (bool_decide_unpack _); vm_compute; exact I|]). constructor.
Qed.

Print Assumptions C75_names_read_back.
Print Assumptions C75_document_errors_differ.
Print Assumptions C75_files_differ.
Print Assumptions C75_cause_refuted.
Print Assumptions C75_one_line.
Print Assumptions C75_task_errors_differ.
Print Assumptions C75_chain_read_back.
Print Assumptions C75_library_text.
Print Assumptions C75_suggestion.
Print Assumptions C75_variable_suggestion.
Print Assumptions C75_variable_cycle.
Print Assumptions C75_chain_refuted.
