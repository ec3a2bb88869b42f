(** Proofs about [when] conditions. *)
From Verif Require Import Base Interp_Model Interp_Spec Interp_Proof Vars_Proof Cond_Model Cond_Spec.
Local Arguments lit : simpl never.

(** ** Trimming with a prefix code *)
Section Trim.
  Context (encs : list str).
  Hypothesis Hne : [] ∉ encs.
  Hypothesis Hcode : forall e e' r, e ∈ encs -> e' ∈ encs -> e' = e ++ r -> e' = e.

  Inductive cat : str -> Prop :=
  | cat_nil : cat []
  | cat_cons e s : e ∈ encs -> cat s -> cat (e ++ s).

  Definition no_head (s : str) : Prop := forall e r, e ∈ encs -> s <> e ++ r.

  Lemma enc_len_None s : enc_len encs s = None <-> no_head s.
  Proof.
    unfold enc_len, no_head. split.
    - intros H e r He ->. destruct (filter _ encs) as [|e' l] eqn:E; [|discriminate].
      assert (He' : e ∈ filter (fun e0 => has_prefix e0 (e ++ r) = true) encs).
      { apply elem_of_list_filter. split; [apply has_prefix_true; eauto|exact He]. }
      rewrite E in He'. inversion He'.
    - intros H. destruct (filter _ encs) as [|e' l] eqn:E; [reflexivity|].
      assert (He' : e' ∈ filter (fun e0 => has_prefix e0 s = true) encs) by (rewrite E; left).
      apply elem_of_list_filter in He' as [Hp He']. apply has_prefix_true in Hp as [r ->]. exfalso; exact (H e' r He' eq_refl).
  Qed.

  Lemma enc_len_app e r : e ∈ encs -> enc_len encs (e ++ r) = Some (length e).
  Proof.
    intros He. unfold enc_len. destruct (filter _ encs) as [|e' l] eqn:E.
    - assert (He' : e ∈ filter (fun e0 => has_prefix e0 (e ++ r) = true) encs).
      { apply elem_of_list_filter. split; [apply has_prefix_true; eauto|exact He]. }
      rewrite E in He'. inversion He'.
    - assert (He' : e' ∈ filter (fun e0 => has_prefix e0 (e ++ r) = true) encs) by (rewrite E; left).
      apply elem_of_list_filter in He' as [Hp He']. apply has_prefix_true in Hp as [r' Er].
      f_equal. apply app_eq_inv in Er as [(k & E1 & E2)|(k & E1 & E2)].
      + rewrite (Hcode _ _ _ He' He E1). reflexivity.
      + rewrite (Hcode _ _ _ He He' E1). reflexivity.
  Qed.

  Lemma trim_skip k s : trim_encs encs k s = trim_encs encs 0 (drop k s).
  Proof. revert k; induction s as [|c s IH]; intros [|k]; try reflexivity. simpl. apply IH. Qed.

  Lemma trim_enc e s : e ∈ encs -> trim_encs encs 0 (e ++ s) = trim_encs encs 0 s.
  Proof.
    intros He. destruct e as [|c e]; [contradiction|]. cbn [app trim_encs].
    change (c :: e ++ s) with ((c :: e) ++ s). rewrite (enc_len_app _ _ He). cbn [length pred].
    rewrite trim_skip, drop_app. reflexivity.
  Qed.

  Lemma trim_cat a s : cat a -> trim_encs encs 0 (a ++ s) = trim_encs encs 0 s.
  Proof. intros H; induction H as [|e a He Ha IH]; [reflexivity|]. rewrite <- app_assoc, trim_enc by exact He. exact IH. Qed.

  Lemma trim_no_head s : no_head s -> trim_encs encs 0 s = s.
  Proof. intros H. destruct s as [|c s]; [reflexivity|]. cbn [trim_encs]. apply enc_len_None in H. rewrite H. reflexivity. Qed.

  Lemma no_head_nil : no_head [].
  Proof. intros e r He E. destruct e; [contradiction|discriminate]. Qed.

  Lemma trim_decomp s : exists a, s = a ++ trim_encs encs 0 s /\ cat a /\ no_head (trim_encs encs 0 s).
  Proof.
    remember (length s) as k eqn:Hk. revert s Hk. induction (lt_wf k) as [k _ IH]; intros s Hk.
    destruct (enc_len encs s) as [n|] eqn:E.
    - unfold enc_len in E. destruct (filter _ encs) as [|e l] eqn:Ef; [discriminate|]. injection E as <-.
      assert (He : e ∈ filter (fun e0 => has_prefix e0 s = true) encs) by (rewrite Ef; left).
      apply elem_of_list_filter in He as [Hp He]. apply has_prefix_true in Hp as [r ->].
      rewrite (trim_enc _ _ He). destruct (IH (length r)) with (s := r) as (a & Ea & Ha & Hn).
      { rewrite Hk, app_length. destruct e; [contradiction|]. simpl. lia. } { reflexivity. }
      exists (e ++ a). split; [rewrite <- app_assoc, <- Ea; reflexivity|]. split; [constructor; assumption|exact Hn].
    - apply enc_len_None in E. exists []. rewrite (trim_no_head _ E). split; [reflexivity|]. split; [constructor|exact E].
  Qed.

  Lemma cat_app a b : cat a -> cat b -> cat (a ++ b).
  Proof. intros Ha Hb; induction Ha as [|e a He Ha IH]; [exact Hb|]. rewrite <- app_assoc. constructor; assumption. Qed.
End Trim.

(** ** The concrete encodings *)

Lemma uspace_elem e : uspace e <-> e ∈ space_encs.
Proof.
  split.
  - intros H. destruct H as [c Hc| | | |c Hc| | | | |]; try (apply (bool_decide_unpack _); vm_compute; exact I).
    + assert (code c ∈ [9;10;11;12;13;32]) as Hin.
      { unfold code. destruct Hc as [Hc|Hc]; [|rewrite Hc; set_solver].
        assert (nat_of_ascii c = 9 \/ nat_of_ascii c = 10 \/ nat_of_ascii c = 11 \/ nat_of_ascii c = 12 \/ nat_of_ascii c = 13) as Hx by lia.
        repeat (destruct Hx as [Hx|Hx]; [rewrite Hx; set_solver|]). rewrite Hx; set_solver. }
      repeat (apply elem_of_cons in Hin as [Hin|Hin];
        [assert (c = chr (code c)) as -> by (symmetry; apply ascii_nat_embedding); rewrite Hin; apply (bool_decide_unpack _); vm_compute; exact I|]).
      inversion Hin.
    + assert (Hin : code c ∈ seq 128 11) by (apply elem_of_seq; unfold code; lia).
      assert (c = chr (code c)) as -> by (symmetry; apply ascii_nat_embedding).
      unfold space_encs. apply elem_of_list_fmap. exists [226; 128; code c]. split; [reflexivity|].
      apply elem_of_app. right. apply elem_of_app. left. apply elem_of_list_fmap. exists (code c - 128).
      apply elem_of_seq in Hin. split; [f_equal; f_equal; f_equal; lia|]. apply elem_of_seq. lia.
  - intros H. unfold space_encs in H. cbv [map app seq] in H.
    repeat (apply elem_of_cons in H as [->|H];
      [first [ apply us_ascii; vm_compute; lia | apply us_2000; vm_compute; lia | exact us_nel | exact us_nbsp | exact us_ogham
             | exact us_2028 | exact us_2029 | exact us_202f | exact us_205f | exact us_3000 ]|]).
    inversion H.
Qed.

Definition continuation (c : ascii) : Prop := 128 <= nat_of_ascii c < 192.
Definition continuation_b (c : ascii) : bool := (128 <=? nat_of_ascii c) && (nat_of_ascii c <? 192).

Lemma continuation_b_spec c : continuation_b c = true <-> continuation c.
Proof. unfold continuation_b, continuation. rewrite andb_true_iff, Nat.leb_le, Nat.ltb_lt. reflexivity. Qed.

Definition shape_b (e : str) : bool :=
  match e with c :: r => negb (continuation_b c) && forallb continuation_b r | [] => false end.

Lemma uspace_shape e : uspace e -> exists c r, e = c :: r /\ ~ continuation c /\ Forall continuation r.
Proof.
  intros H. apply uspace_elem in H.
  assert (Hall : forallb shape_b space_encs = true) by (vm_compute; reflexivity).
  rewrite forallb_forall in Hall. specialize (Hall e (proj1 (elem_of_list_In _ _) H)).
  destruct e as [|c r]; [discriminate|]. cbn [shape_b] in Hall. apply andb_true_iff in Hall as [Hc Hr].
  exists c, r. split; [reflexivity|]. split.
  - intros Hc'. apply continuation_b_spec in Hc'. rewrite Hc' in Hc. discriminate.
  - rewrite forallb_forall in Hr. apply Forall_forall. intros x Hx. apply continuation_b_spec, Hr, elem_of_list_In, Hx.
Qed.

Lemma enc_nonempty : [] ∉ space_encs.
Proof. apply (bool_decide_unpack _). vm_compute. exact I. Qed.
Definition code_check (encs : list str) : bool :=
  forallb (fun e1 => forallb (fun e2 => implb (has_prefix e1 e2) (bool_decide (e2 = e1))) encs) encs.
Lemma code_check_sound encs : code_check encs = true -> forall e e' r, e ∈ encs -> e' ∈ encs -> e' = e ++ r -> e' = e.
Proof.
  intros H e e' r He He' E. unfold code_check in H. rewrite forallb_forall in H.
  specialize (H e (proj1 (elem_of_list_In _ _) He)). rewrite forallb_forall in H.
  specialize (H e' (proj1 (elem_of_list_In _ _) He')).
  assert (Hp : has_prefix e e' = true) by (apply has_prefix_true; eauto).
  rewrite Hp in H. simpl in H. apply bool_decide_eq_true in H. exact H.
Qed.
Lemma enc_code e e' r : e ∈ space_encs -> e' ∈ space_encs -> e' = e ++ r -> e' = e.
Proof. apply code_check_sound. vm_compute. reflexivity. Qed.
Definition rev_encs := map (@rev ascii) space_encs.
Lemma rev_enc_nonempty : [] ∉ rev_encs.
Proof. apply (bool_decide_unpack _). vm_compute. exact I. Qed.
Lemma rev_enc_code e e' r : e ∈ rev_encs -> e' ∈ rev_encs -> e' = e ++ r -> e' = e.
Proof. apply code_check_sound. vm_compute. reflexivity. Qed.

Lemma blank_cat s : blank s <-> cat space_encs s.
Proof.
  split; intros H; induction H; constructor; try assumption; apply uspace_elem; assumption.
Qed.
Lemma rev_cat s : cat space_encs s <-> cat rev_encs (rev s).
Proof.
  assert (H1 : forall s, cat space_encs s -> cat rev_encs (rev s)).
  { intros x H; induction H as [|e x He Hx IH]; [constructor|]. rewrite rev_app_distr. apply cat_app; [exact IH|].
    rewrite <- (app_nil_r (rev e)). constructor; [|constructor]. apply elem_of_list_fmap. eauto. }
  assert (H2 : forall s, cat rev_encs s -> cat space_encs (rev s)).
  { intros x H; induction H as [|e x He Hx IH]; [constructor|]. rewrite rev_app_distr. apply cat_app; [exact IH|].
    rewrite <- (app_nil_r (rev e)). constructor; [|constructor]. apply elem_of_list_fmap in He as (e' & -> & He'). rewrite rev_involutive. exact He'. }
  split; [apply H1|]. intros H. apply H2 in H. rewrite rev_involutive in H. exact H.
Qed.

Lemma no_head_spec s : no_head space_encs s <-> forall e r, uspace e -> s <> e ++ r.
Proof. unfold no_head. split; intros H e r He; apply H; apply uspace_elem; exact He. Qed.
Lemma no_head_rev s : no_head rev_encs (rev s) <-> forall e r, uspace e -> s <> r ++ e.
Proof.
  unfold no_head. split.
  - intros H e r He ->. apply (H (rev e) (rev r)); [apply elem_of_list_fmap; exists e; split; [reflexivity|apply uspace_elem; exact He]|].
    rewrite rev_app_distr. reflexivity.
  - intros H e r He E. apply elem_of_list_fmap in He as (e' & -> & He'). apply (H e' (rev r)); [apply uspace_elem; exact He'|].
    rewrite <- (rev_involutive s), E, rev_app_distr, rev_involutive. reflexivity.
Qed.

(** A blank or anything starting with a non-continuation byte does not merge with what precedes it. *)
Lemma no_straddle t b : t <> [] -> (match b with [] => True | c :: _ => ~ continuation c end) ->
  (forall e r, uspace e -> t <> e ++ r) -> forall e r, uspace e -> t ++ b <> e ++ r.
Proof.
  intros Ht Hb Hn e r He E. apply app_eq_inv in E as [(k & E1 & E2)|(k & E1 & E2)].
  - exact (Hn e k He E1).
  - destruct k as [|d k]; [apply (Hn e []); [exact He|rewrite app_nil_r in *; auto]|].
    destruct b as [|c b]; [discriminate|]. injection E2 as -> E2.
    destruct (uspace_shape _ He) as (c0 & u & -> & _ & Hu). destruct t as [|c1 t]; [congruence|].
    injection E1 as -> ->. rewrite Forall_app in Hu. destruct Hu as [_ Hu]. inversion Hu; subst. contradiction.
Qed.

Lemma blank_head b : blank b -> match b with [] => True | c :: _ => ~ continuation c end.
Proof. intros H; destruct H as [|e s He Hs]; [exact I|]. destruct (uspace_shape _ He) as (c & r & -> & Hc & _). exact Hc. Qed.

Lemma trimmed_trim_space s t : trimmed s t <-> trim_space s = t.
Proof.
  split.
  - intros (a & b & -> & Ha & Hb & Hl & Hr). unfold trim_space, trim_left, trim_right.
    rewrite (trim_cat _ enc_nonempty enc_code) by (apply blank_cat; exact Ha).
    destruct (decide (t = [])) as [->|Ht].
    + rewrite app_nil_l. rewrite <- (app_nil_r b) at 1. rewrite (trim_cat _ enc_nonempty enc_code) by (apply blank_cat; exact Hb). reflexivity.
    + rewrite (trim_no_head space_encs (t ++ b)).
      2:{ apply no_head_spec. apply no_straddle; [exact Ht|apply blank_head; exact Hb|exact Hl]. }
      rewrite rev_app_distr. fold rev_encs.
      rewrite (trim_cat _ rev_enc_nonempty rev_enc_code) by (apply -> rev_cat; apply blank_cat; exact Hb).
      rewrite trim_no_head by (apply no_head_rev; exact Hr). apply rev_involutive.
  - intros <-. unfold trim_space.
    destruct (trim_decomp _ enc_nonempty enc_code s) as (a & Ea & Ha & Hna). fold (trim_left s) in Ea, Hna.
    destruct (trim_decomp _ rev_enc_nonempty rev_enc_code (rev (trim_left s))) as (b & Eb & Hb & Hnb).
    set (t := trim_encs rev_encs 0 (rev (trim_left s))) in *.
    assert (Et : trim_right (trim_left s) = rev t) by reflexivity.
    assert (El : trim_left s = rev t ++ rev b) by (rewrite <- rev_app_distr, <- Eb, rev_involutive; reflexivity).
    exists a, (rev b). rewrite Et. split; [rewrite <- El; exact Ea|]. split; [apply blank_cat; exact Ha|].
    split; [apply blank_cat, rev_cat; rewrite rev_involutive; exact Hb|]. split.
    + intros e r He E. rewrite El, E, <- app_assoc in Hna. exact (proj1 (no_head_spec _) Hna e _ He eq_refl).
    + apply no_head_rev. rewrite rev_involutive. exact Hnb.
Qed.

Lemma trimmed_fun s t t' : trimmed s t -> trimmed s t' -> t = t'.
Proof. rewrite !trimmed_trim_space. congruence. Qed.

Lemma blank_app a b : blank a -> blank b -> blank (a ++ b).
Proof. rewrite !blank_cat. apply cat_app. Qed.

Lemma trimmed_app_blank s t w : blank w -> trimmed s t -> trimmed (s ++ w) t.
Proof.
  intros Hw (a & b & -> & Ha & Hb & Hl & Hr). exists a, (b ++ w). rewrite <- !app_assoc.
  split; [reflexivity|]. split; [exact Ha|]. split; [apply blank_app; assumption|]. auto.
Qed.

Lemma gap_blank w : gap w -> blank w.
Proof.
  intros H; induction H as [|c w Hc Hw IH]; [constructor|]. apply (blank_cons [c]); [|exact IH].
  constructor. destruct Hc as [->|[->|[->|[->| ->]]]]; vm_compute; lia.
Qed.

Lemma trimmed_trimmed s t : trimmed s t -> trimmed t t.
Proof.
  intros (a & b & -> & Ha & Hb & Hl & Hr). exists [], []. rewrite app_nil_l, app_nil_r.
  split; [reflexivity|]. split; [constructor|]. split; [constructor|]. auto.
Qed.

(** ** Quotes *)

Lemma is_quote_spec c : is_quote c = true <-> quote_char c.
Proof. unfold is_quote, quote_char. rewrite bool_decide_eq_true. reflexivity. Qed.

Lemma drop_quotes_decomp s : exists a, s = a ++ drop_quotes s /\ Forall quote_char a /\
  (forall c r, quote_char c -> drop_quotes s <> c :: r).
Proof.
  induction s as [|c s (a & Ea & Ha & Hn)]; cbn [drop_quotes].
  - exists []. split; [reflexivity|]. split; [constructor|]. intros c r _; discriminate.
  - destruct (is_quote c) eqn:E.
    + exists (c :: a). split; [cbn; f_equal; exact Ea|]. split; [constructor; [apply is_quote_spec; exact E|exact Ha]|exact Hn].
    + exists []. split; [reflexivity|]. split; [constructor|]. intros d r Hd Eq. injection Eq as -> _.
      apply is_quote_spec in Hd. congruence.
Qed.
Lemma drop_quotes_app a s : Forall quote_char a -> drop_quotes (a ++ s) = drop_quotes s.
Proof.
  intros H; induction H as [|c a Hc Ha IH]; [reflexivity|]. cbn [app drop_quotes].
  apply is_quote_spec in Hc. rewrite Hc. exact IH.
Qed.
Lemma drop_quotes_id s : (forall c r, quote_char c -> s <> c :: r) -> drop_quotes s = s.
Proof.
  destruct s as [|c s]; [reflexivity|]. intros H. cbn [drop_quotes]. destruct (is_quote c) eqn:E; [|reflexivity].
  apply is_quote_spec in E. exfalso; exact (H c s E eq_refl).
Qed.

Lemma Forall_rev' {A} (P : A -> Prop) l : Forall P l -> Forall P (rev l).
Proof. intros H. rewrite Forall_forall in *. intros x Hx. apply H. rewrite elem_of_list_In in *. apply in_rev. exact Hx. Qed.

Lemma unquoted_trim_quotes t u : unquoted t u <-> trim_quotes t = u.
Proof.
  split.
  - intros (a & b & -> & Ha & Hb & Hl & Hr). unfold trim_quotes. rewrite drop_quotes_app by exact Ha.
    destruct (decide (u = [])) as [->|Hu].
    + rewrite app_nil_l. assert (drop_quotes b = []) as ->; [|reflexivity].
      rewrite <- (app_nil_r b). rewrite drop_quotes_app by exact Hb. reflexivity.
    + assert (drop_quotes (u ++ b) = u ++ b) as ->.
      { apply drop_quotes_id. intros c r Hc E. destruct u as [|d u]; [congruence|]. injection E as -> _. exact (Hl c u Hc eq_refl). }
      rewrite rev_app_distr, drop_quotes_app by (apply Forall_rev'; exact Hb).
      rewrite drop_quotes_id; [apply rev_involutive|]. intros c r Hc E. apply (Hr c (rev r) Hc).
      rewrite <- (rev_involutive u), E. reflexivity.
  - intros <-. unfold trim_quotes. destruct (drop_quotes_decomp t) as (a & Ea & Ha & Hna).
    destruct (drop_quotes_decomp (rev (drop_quotes t))) as (b & Eb & Hb & Hnb).
    set (x := drop_quotes (rev (drop_quotes t))) in *.
    assert (El : drop_quotes t = rev x ++ rev b) by (rewrite <- rev_app_distr, <- Eb, rev_involutive; reflexivity).
    exists a, (rev b). split; [rewrite <- El; exact Ea|]. split; [exact Ha|]. split; [apply Forall_rev'; exact Hb|]. split.
    + intros c r Hc E. apply (Hna c (r ++ rev b) Hc). rewrite El, E. reflexivity.
    + intros c r Hc E. apply (Hnb c (rev r) Hc). rewrite <- (rev_involutive x), E, rev_app_distr. reflexivity.
Qed.

(** ** The comparison patterns *)

Lemma gap_ws w : gap w <-> Forall (fun c => is_ws c = true) w.
Proof. rewrite Forall_ws. reflexivity. Qed.

Definition op_text (o : cmpop) : str := match o with OpEq => lit "==" | OpNe => lit "!=" end.

Lemma cmp_tail_spec q s o r : quote_char q ->
  cmp_tail q s = Some (o, r) <->
  exists w1 w2, gap w1 /\ gap w2 /\ s = w1 ++ op_text o ++ w2 ++ [q] ++ r ++ [q] /\ q ∉ r.
Proof.
  intros Hq. assert (Hqw : is_ws q = false) by (destruct Hq as [->| ->]; reflexivity).
  unfold cmp_tail. split.
  - destruct (span is_ws s) as [w1 s1] eqn:E1. apply span_spec in E1 as (-> & Hw1 & _). apply gap_ws in Hw1.
    set (op := match strip_prefix (lit "==") s1 with Some r0 => Some (OpEq, r0) | None => match strip_prefix (lit "!=") s1 with Some r0 => Some (OpNe, r0) | None => None end end).
    assert (Hop : forall o' s2, op = Some (o', s2) -> s1 = op_text o' ++ s2).
    { intros o' s2. unfold op. destruct (strip_prefix (lit "==") s1) as [x|] eqn:Ex.
      - intros H; injection H as <- <-. apply strip_prefix_Some; exact Ex.
      - destruct (strip_prefix (lit "!=") s1) as [y|] eqn:Ey; [|discriminate].
        intros H; injection H as <- <-. apply strip_prefix_Some; exact Ey. }
    destruct op as [[o' s2]|]; [|discriminate]. rewrite (Hop _ _ eq_refl).
    destruct (span is_ws s2) as [w2 s3] eqn:E2. apply span_spec in E2 as (-> & Hw2 & _). apply gap_ws in Hw2.
    destruct s3 as [|c s4]; [discriminate|]. destruct (decide (c = q)) as [->|]; [|discriminate].
    destruct (span _ s4) as [rhs s5] eqn:E3. apply span_spec in E3 as (-> & Hr & _).
    destruct (decide (s5 = [q])) as [->|]; [|discriminate]. intros H; injection H as <- <-.
    exists w1, w2. split; [exact Hw1|]. split; [exact Hw2|]. split; [reflexivity|].
    intros Hin. rewrite Forall_forall in Hr. specialize (Hr _ Hin). rewrite bool_decide_eq_true_2 in Hr by reflexivity. discriminate.
  - intros (w1 & w2 & Hw1 & Hw2 & -> & Hr). apply gap_ws in Hw1, Hw2.
    rewrite (span_app is_ws w1); [|exact Hw1|destruct o; reflexivity].
    assert (match strip_prefix (lit "==") (op_text o ++ w2 ++ [q] ++ r ++ [q]) with Some r0 => Some (OpEq, r0) | None => match strip_prefix (lit "!=") (op_text o ++ w2 ++ [q] ++ r ++ [q]) with Some r0 => Some (OpNe, r0) | None => None end end = Some (o, w2 ++ [q] ++ r ++ [q])) as ->.
    { destruct o; cbn [op_text]; [rewrite strip_prefix_app; reflexivity|].
      rewrite strip_prefix_app. destruct (strip_prefix (lit "==") (lit "!=" ++ w2 ++ [q] ++ r ++ [q])) eqn:E; [|reflexivity].
      apply strip_prefix_Some in E. discriminate E. }
    rewrite (span_app is_ws w2); [|exact Hw2|exact Hqw]. cbn [app].
    destruct (decide (q = q)) as [_|]; [|congruence].
    rewrite (span_app _ r [q]).
    + destruct (decide ([q] = [q])) as [_|]; [reflexivity|congruence].
    + rewrite Forall_forall. intros d Hd. rewrite bool_decide_eq_false_2; [reflexivity|]. intros ->. contradiction.
    + rewrite bool_decide_eq_true_2 by reflexivity. reflexivity.
Qed.

Lemma cmp_from_Some q l s L o r : cmp_from q l s = Some (L, o, r) ->
  exists p rest, L = l ++ p /\ s = p ++ rest /\ p <> [] /\ NL ∉ p /\ cmp_tail q rest = Some (o, r).
Proof.
  revert l; induction s as [|c s IH]; intros l; cbn [cmp_from]; [discriminate|].
  destruct (decide (c = NL)) as [|Hc]; [discriminate|].
  destruct (cmp_tail q s) as [[o' r']|] eqn:E.
  - intros H; injection H as <- <- <-. exists [c], s. split; [reflexivity|]. split; [reflexivity|]. split; [discriminate|].
    split; [|exact E]. rewrite not_elem_of_cons. split; [congruence|]. intros H; inversion H.
  - intros H. destruct (IH _ H) as (p & rest & -> & -> & Hp & Hn & Ht). exists (c :: p), rest.
    rewrite <- app_assoc. split; [reflexivity|]. split; [reflexivity|]. split; [discriminate|]. split; [|exact Ht].
    rewrite not_elem_of_cons. split; [congruence|exact Hn].
Qed.

Lemma cmp_from_complete q l s p rest o r : s = p ++ rest -> p <> [] -> NL ∉ p -> cmp_tail q rest = Some (o, r) ->
  exists x, cmp_from q l s = Some x.
Proof.
  intros ->. revert l. induction p as [|c p IH]; intros l Hp Hn Ht; [congruence|]. cbn [app cmp_from].
  rewrite not_elem_of_cons in Hn. destruct Hn as [Hc Hn]. destruct (decide (c = NL)) as [E|_]; [congruence|].
  destruct (cmp_tail q (p ++ rest)) as [[o' r']|] eqn:E; [eauto|].
  destruct p as [|d p]; [cbn [app] in E; congruence|]. apply IH; [discriminate|exact Hn|exact Ht].
Qed.

Lemma last_quote_unique (q : ascii) X X' R R' : q ∉ R -> q ∉ R' ->
  X ++ [q] ++ R ++ [q] = X' ++ [q] ++ R' ++ [q] -> X = X' /\ R = R'.
Proof.
  intros HR HR' E. rewrite !app_assoc in E. apply app_inj_tail in E as [E _]. rewrite <- !app_assoc in E. cbn [app] in E.
  revert X' E. induction X as [|x X IH]; intros X' E; destruct X' as [|x' X']; cbn [app] in E.
  - injection E as ->. auto.
  - injection E as -> E. exfalso. apply HR. rewrite E, elem_of_app. right; left.
  - injection E as -> E. exfalso. apply HR'. rewrite <- E, elem_of_app. right; left.
  - injection E as -> E. destruct (IH _ E) as [-> ->]. auto.
Qed.

Lemma gap_suffix_unique Y Y' w w' (c c' : ascii) : gap w -> gap w' -> is_ws c = false -> is_ws c' = false ->
  Y ++ [c] ++ w = Y' ++ [c'] ++ w' -> Y = Y' /\ c = c' /\ w = w'.
Proof.
  rewrite !gap_ws. intros Hw Hw' Hc Hc' E.
  assert (Er : rev w ++ c :: rev Y = rev w' ++ c' :: rev Y').
  { rewrite <- (rev_involutive (rev w ++ _)), <- (rev_involutive (rev w' ++ _)). f_equal.
    rewrite !rev_app_distr, !rev_involutive. cbn [rev]. rewrite !rev_involutive, <- !app_assoc. exact E. }
  pose proof (span_app is_ws (rev w) (c :: rev Y) (Forall_rev' _ _ Hw) Hc) as E1.
  pose proof (span_app is_ws (rev w') (c' :: rev Y') (Forall_rev' _ _ Hw') Hc') as E2.
  rewrite Er, E2 in E1. injection E1 as H1 H2 H3.
  split; [|split]; [| congruence |].
  - rewrite <- (rev_involutive Y), <- (rev_involutive Y'). congruence.
  - rewrite <- (rev_involutive w), <- (rev_involutive w'). congruence.
Qed.

Lemma comparison_unique q P P' o o' w w' R R' : gap w -> gap w' -> q ∉ R -> q ∉ R' ->
  P ++ op_text o ++ w ++ [q] ++ R ++ [q] = P' ++ op_text o' ++ w' ++ [q] ++ R' ++ [q] -> P = P' /\ o = o' /\ R = R'.
Proof.
  intros Hw Hw' HR HR' E.
  replace (P ++ op_text o ++ w ++ [q] ++ R ++ [q]) with ((P ++ op_text o ++ w) ++ [q] ++ R ++ [q]) in E by (rewrite <- !app_assoc; reflexivity).
  replace (P' ++ op_text o' ++ w' ++ [q] ++ R' ++ [q]) with ((P' ++ op_text o' ++ w') ++ [q] ++ R' ++ [q]) in E by (rewrite <- !app_assoc; reflexivity).
  apply last_quote_unique in E as [E ->]; [|assumption..].
  set (h o := match o with OpEq => "="%char | OpNe => "!"%char end).
  assert (Ho : forall o, op_text o = [h o] ++ ["="%char]) by (intros []; reflexivity).
  rewrite !Ho in E.
  replace (P ++ ([h o] ++ ["="%char]) ++ w) with ((P ++ [h o]) ++ ["="%char] ++ w) in E by (rewrite <- !app_assoc; reflexivity).
  replace (P' ++ ([h o'] ++ ["="%char]) ++ w') with ((P' ++ [h o']) ++ ["="%char] ++ w') in E by (rewrite <- !app_assoc; reflexivity).
  apply gap_suffix_unique in E as (E & _ & _); [|assumption|assumption|reflexivity|reflexivity].
  apply app_inj_tail in E as [-> E]. split; [reflexivity|]. split; [|reflexivity].
  destruct o, o'; try reflexivity; discriminate E.
Qed.

Definition op_bool (o : cmpop) : bool := match o with OpEq => true | OpNe => false end.
Lemma op_text_bool o : op_text o = if op_bool o then lit "==" else lit "!=".
Proof. destruct o; reflexivity. Qed.

Lemma cmp_from_comparison q s L o r : quote_char q -> cmp_from q [] s = Some (L, o, r) -> comparison s L r (op_bool o).
Proof.
  intros Hq H. apply cmp_from_Some in H as (p & rest & -> & -> & Hp & Hn & Ht).
  apply cmp_tail_spec in Ht as (w1 & w2 & Hw1 & Hw2 & -> & Hr); [|exact Hq].
  exists w1, w2, q. rewrite <- op_text_bool. repeat split; assumption.
Qed.

Lemma comparison_last s L R eq : comparison s L R eq -> exists q x, quote_char q /\ s = x ++ [q].
Proof.
  intros (w1 & w2 & q & Hq & _ & _ & -> & _). exists q. eexists. split; [exact Hq|]. rewrite !app_assoc. reflexivity.
Qed.

Lemma cmp_from_other q q' x : quote_char q -> q <> q' -> cmp_from q [] (x ++ [q']) = None.
Proof.
  intros Hq Hne. destruct (cmp_from q [] (x ++ [q'])) as [[[L o] r]|] eqn:E; [|reflexivity].
  apply cmp_from_Some in E as (p & rest & _ & E & _ & _ & Ht). apply cmp_tail_spec in Ht as (w1 & w2 & _ & _ & -> & _); [|exact Hq].
  rewrite !app_assoc in E. apply app_inj_tail in E as [_ E]. congruence.
Qed.

Lemma cmp_from_found q w1 w2 L R o : quote_char q -> gap w1 -> gap w2 -> L <> [] -> NL ∉ L -> q ∉ R ->
  exists L' w1', cmp_from q [] (L ++ w1 ++ op_text o ++ w2 ++ [q] ++ R ++ [q]) = Some (L', o, R) /\ gap w1' /\ L' ++ w1' = L ++ w1.
Proof.
  intros Hq Hw1 Hw2 HL Hn HR.
  destruct (cmp_from_complete q [] (L ++ w1 ++ op_text o ++ w2 ++ [q] ++ R ++ [q]) L (w1 ++ op_text o ++ w2 ++ [q] ++ R ++ [q]) o R eq_refl HL Hn) as [[[L' o'] R'] E].
  { apply cmp_tail_spec; [exact Hq|]. exists w1, w2. auto. }
  pose proof E as E0. apply cmp_from_Some in E0 as (p & rest & EL & Es & Hp & Hnp & Ht). cbn [app] in EL. subst p.
  apply cmp_tail_spec in Ht as (w1' & w2' & Hw1' & Hw2' & -> & HR'); [|exact Hq].
  rewrite (app_assoc L w1), (app_assoc L' w1') in Es.
  apply comparison_unique in Es as (E1 & <- & <-); [|assumption..].
  exists L', w1'. split; [exact E|]. auto.
Qed.

Lemma trim_space_gap L L' w w' : gap w -> gap w' -> L ++ w = L' ++ w' -> trim_space L = trim_space L'.
Proof.
  intros Hw Hw' E. 
  pose proof (trimmed_app_blank L _ w (gap_blank _ Hw) (proj2 (trimmed_trim_space _ _) eq_refl)) as H1.
  pose proof (trimmed_app_blank L' _ w' (gap_blank _ Hw') (proj2 (trimmed_trim_space _ _) eq_refl)) as H2.
  rewrite E in H1. exact (trimmed_fun _ _ _ H1 H2).
Qed.

Lemma evaluate_comparison_Some s L R eq l u : comparison s L R eq -> trimmed L l -> unquoted l u ->
  evaluate_comparison s = Some (if eq then bool_decide (u = R) else negb (bool_decide (u = R))).
Proof.
  intros (w1 & w2 & q & Hq & Hw1 & Hw2 & Es & HL & Hn & HR) Ht Hu.
  apply trimmed_trim_space in Ht. apply unquoted_trim_quotes in Hu.
  set (o := if eq then OpEq else OpNe).
  assert (Eo : op_text o = if eq then lit "==" else lit "!=") by (destruct eq; reflexivity). rewrite <- Eo in Es.
  destruct (cmp_from_found q w1 w2 L R o Hq Hw1 Hw2 HL Hn HR) as (L' & w1' & E & Hw1' & EL). rewrite <- Es in E.
  assert (Hv : evaluate_op (trim_quotes (trim_space L')) o R = if eq then bool_decide (u = R) else negb (bool_decide (u = R))).
  { rewrite (trim_space_gap L' L w1' w1 Hw1' Hw1 EL), Ht, Hu. unfold o. destruct eq; reflexivity. }
  unfold evaluate_comparison. destruct Hq as [->| ->].
  - fold SQ in E. rewrite E, Hv. reflexivity.
  - fold DQ in E. assert (En : cmp_from SQ [] s = None).
    { rewrite Es, !app_assoc. apply cmp_from_other; [left; reflexivity|discriminate]. }
    rewrite En, E, Hv. reflexivity.
Qed.

Lemma evaluate_comparison_None s : evaluate_comparison s = None <-> forall L R eq, ~ comparison s L R eq.
Proof.
  split.
  - intros H L R eq Hc. rewrite (evaluate_comparison_Some s L R eq (trim_space L) (trim_quotes (trim_space L)) Hc) in H; [discriminate| |].
    + apply trimmed_trim_space; reflexivity.
    + apply unquoted_trim_quotes; reflexivity.
  - intros H. unfold evaluate_comparison. destruct (cmp_from SQ [] s) as [[[L o] r]|] eqn:E1.
    { exfalso. eapply H. eapply cmp_from_comparison; [left; reflexivity|exact E1]. }
    destruct (cmp_from DQ [] s) as [[[L o] r]|] eqn:E2; [|reflexivity].
    exfalso. eapply H. eapply cmp_from_comparison; [right; reflexivity|exact E2].
Qed.

(** ** Truthiness *)

Lemma fold_match_spec t : fold_match fold_variants t = true <-> false_word t.
Proof.
  unfold false_word, fold_variants. cbn [fold_match].
  assert (Hstep : forall (P : str -> bool) alts s, existsb (fun a => match strip_prefix a s with Some r => P r | None => false end) alts = true <->
    exists a r, a ∈ alts /\ s = a ++ r /\ P r = true).
  { intros P alts s. rewrite existsb_exists. split.
    - intros (a & Ha & H). destruct (strip_prefix a s) as [r|] eqn:E; [|discriminate]. apply strip_prefix_Some in E.
      exists a, r. split; [apply elem_of_list_In; exact Ha|]. auto.
    - intros (a & r & Ha & -> & H). exists a. split; [apply elem_of_list_In; exact Ha|]. rewrite strip_prefix_app. exact H. }
  rewrite Hstep. setoid_rewrite Hstep. setoid_rewrite Hstep. setoid_rewrite Hstep. setoid_rewrite Hstep.
  setoid_rewrite bool_decide_eq_true. split.
  - intros (a & r & Ha & -> & b & r2 & Hb & -> & c & r3 & Hc & -> & d & r4 & Hd & -> & e & r5 & He & -> & ->).
    exists a, b, c, d, e. rewrite app_nil_r. repeat split; assumption || reflexivity.
  - intros (a & b & c & d & e & -> & Ha & Hb & Hc & Hd & He).
    exists a, (b ++ c ++ d ++ e). split; [exact Ha|]. split; [reflexivity|].
    exists b, (c ++ d ++ e). split; [exact Hb|]. split; [reflexivity|].
    exists c, (d ++ e). split; [exact Hc|]. split; [reflexivity|].
    exists d, e. split; [exact Hd|]. split; [reflexivity|].
    exists e, []. rewrite app_nil_r. repeat split; assumption || reflexivity.
Qed.

Lemma evaluate_truthy_spec x t : trimmed x t -> evaluate_truthy x = false <-> t = [] \/ false_word t.
Proof.
  intros Ht. apply trimmed_trim_space in Ht. unfold evaluate_truthy. rewrite Ht.
  destruct (decide (t = [])) as [->|Hne]; [tauto|].
  rewrite <- fold_match_spec. destruct (fold_match fold_variants t); split; try tauto; try discriminate.
  - intros [H|H]; [contradiction|discriminate].
Qed.

(** ** Whole conditions *)

Lemma evaluate_text_comparison x t L R eq l u : trimmed x t -> comparison t L R eq -> trimmed L l -> unquoted l u ->
  evaluate_text x = if eq then bool_decide (u = R) else negb (bool_decide (u = R)).
Proof.
  intros Hx Hc Hl Hu. apply trimmed_trim_space in Hx. unfold evaluate_text. rewrite Hx.
  rewrite (evaluate_comparison_Some _ _ _ _ _ _ Hc Hl Hu). reflexivity.
Qed.

Lemma evaluate_text_truthy x t : trimmed x t -> (forall L R eq, ~ comparison t L R eq) ->
  evaluate_text x = false <-> t = [] \/ false_word t.
Proof.
  intros Hx Hc. pose proof (trimmed_trimmed _ _ Hx) as Ht. apply trimmed_trim_space in Hx. unfold evaluate_text. rewrite Hx.
  rewrite (proj2 (evaluate_comparison_None t) Hc). apply evaluate_truthy_spec. exact Ht.
Qed.

(** No white-space encoding contains a quote. *)
Lemma uspace_no_quote e q : uspace e -> quote_char q -> q ∉ e.
Proof.
  intros He Hq. apply uspace_elem in He.
  assert (Hall : forallb (fun e1 => bool_decide (SQ ∉ e1) && bool_decide (DQ ∉ e1)) space_encs = true) by (vm_compute; reflexivity).
  rewrite forallb_forall in Hall. specialize (Hall e (proj1 (elem_of_list_In _ _) He)).
  apply andb_true_iff in Hall as [H1 H2]. apply bool_decide_eq_true in H1, H2. destruct Hq as [->| ->]; assumption.
Qed.

Lemma not_space_ending x q : quote_char q -> forall e r, uspace e -> x ++ [q] <> r ++ e.
Proof.
  intros Hq e r He E.
  destruct (exists_last (l := e)) as (e' & c & ->); [destruct (uspace_shape _ He) as (? & ? & -> & _); discriminate|].
  rewrite app_assoc in E. apply app_inj_tail in E as [_ <-].
  apply (uspace_no_quote _ _ He Hq). rewrite elem_of_app. right; left.
Qed.

Definition cmp_text (eq : bool) (w2 : str) (q : ascii) (R : str) : str :=
  (if eq then lit "==" else lit "!=") ++ w2 ++ [q] ++ R ++ [q].

Lemma gap_head w x : gap w -> (match x with [] => True | c :: _ => ~ continuation c end) ->
  match w ++ x with [] => True | c :: _ => ~ continuation c end.
Proof.
  intros Hw Hx. destruct w as [|c w]; [exact Hx|]. inversion Hw as [|? ? Hc _]; subst. cbn [app].
  unfold continuation. destruct Hc as [->|[->|[->|[->| ->]]]]; vm_compute; lia.
Qed.

Lemma cmp_text_head eq w2 q R : match cmp_text eq w2 q R with [] => True | c :: _ => ~ continuation c end.
Proof. unfold cmp_text, continuation. destruct eq; vm_compute; lia. Qed.

(** Trimming the whole condition only trims the value's left side. *)
Lemma trimmed_condition a t b w1 (eq : bool) w2 q R :
  blank a -> blank b -> t <> [] -> (forall e r, uspace e -> t <> e ++ r) -> gap w1 -> quote_char q ->
  trimmed ((a ++ t ++ b) ++ w1 ++ cmp_text eq w2 q R) (t ++ b ++ w1 ++ cmp_text eq w2 q R).
Proof.
  intros Ha Hb Ht Hl Hw1 Hq. exists a, []. rewrite app_nil_r, <- !app_assoc.
  split; [reflexivity|]. split; [exact Ha|]. split; [constructor|]. split.
  - apply no_straddle; [exact Ht| |exact Hl].
    destruct Hb as [|e s He Hs].
    + cbn [app]. apply gap_head; [exact Hw1|apply cmp_text_head].
    + destruct (uspace_shape _ He) as (c & r & -> & Hc & _). exact Hc.
  - unfold cmp_text. rewrite !app_assoc. apply not_space_ending; exact Hq.
Qed.

(** The text obtained from [${{ x }} op 'lit']. *)
Lemma value_comparison_gen a t b1 b2 u w1 w2 (eq : bool) (q : ascii) R :
  blank a -> blank b1 -> gap b2 -> trimmed t t -> t <> [] -> NL ∉ t ++ b1 ->
  unquoted t u -> gap w1 -> gap w2 -> quote_char q -> q ∉ R ->
  evaluate_text ((a ++ t ++ b1 ++ b2) ++ w1 ++ cmp_text eq w2 q R) =
  if eq then bool_decide (u = R) else negb (bool_decide (u = R)).
Proof.
  intros Ha Hb1 Hb2 Htt Ht Hnl Hu Hw1 Hw2 Hq HR.
  assert (Hl : forall e r, uspace e -> t <> e ++ r).
  { apply trimmed_trim_space in Htt. destruct (proj2 (trimmed_trim_space t t) Htt) as (x & y & E & _ & _ & Hl & _). exact Hl. }
  assert (Hb : blank (b1 ++ b2)) by (apply blank_app; [exact Hb1|apply gap_blank; exact Hb2]).
  eapply (evaluate_text_comparison _ _ (t ++ b1) R eq t u (trimmed_condition a t (b1 ++ b2) w1 eq w2 q R Ha Hb Ht Hl Hw1 Hq)).
  - exists (b2 ++ w1), w2, q. split; [exact Hq|]. split; [apply Forall_app; split; assumption|]. split; [exact Hw2|].
    split; [unfold cmp_text; rewrite <- !app_assoc; reflexivity|].
    split; [destruct t; [congruence|discriminate]|]. split; [exact Hnl|exact HR].
  - apply trimmed_app_blank; [exact Hb1|exact Htt].
  - exact Hu.
Qed.

Lemma value_comparison v t u w1 w2 (eq : bool) (q : ascii) R :
  trimmed v t -> t <> [] -> "010"%char ∉ v -> unquoted t u -> gap w1 -> gap w2 -> quote_char q -> q ∉ R ->
  evaluate_text (v ++ w1 ++ cmp_text eq w2 q R) =
  if eq then bool_decide (u = R) else negb (bool_decide (u = R)).
Proof.
  intros Hv Ht Hnl Hu Hw1 Hw2 Hq HR. pose proof (trimmed_trimmed _ _ Hv) as Htt.
  destruct Hv as (a & b & -> & Ha & Hb & _ & _).
  rewrite <- (value_comparison_gen a t b [] u w1 w2 eq q R); try assumption; [rewrite app_nil_r; reflexivity|constructor|].
  rewrite !elem_of_app in Hnl. rewrite elem_of_app. tauto.
Qed.

(** The comparison is found only if its left side is the value. *)
Lemma comparison_of_cmp_text X eq w2 q R L R' eq' : gap w2 -> quote_char q -> q ∉ R ->
  comparison (X ++ cmp_text eq w2 q R) L R' eq' -> exists w, gap w /\ X = L ++ w /\ L <> [] /\ NL ∉ L.
Proof.
  intros Hw2 Hq HR (w1' & w2' & q' & Hq' & Hw1' & Hw2' & E & HL & Hn & HR').
  assert (q' = q) as ->.
  { unfold cmp_text in E. rewrite !app_assoc in E. apply app_inj_tail in E as [_ E]. congruence. }
  set (o := if eq then OpEq else OpNe). set (o' := if eq' then OpEq else OpNe).
  assert (Eo : (if eq then lit "==" else lit "!=") = op_text o) by (destruct eq; reflexivity).
  assert (Eo' : (if eq' then lit "==" else lit "!=") = op_text o') by (destruct eq'; reflexivity).
  unfold cmp_text in E. rewrite Eo, Eo' in E. rewrite (app_assoc L w1') in E.
  apply comparison_unique in E as (-> & _ & _); [|assumption..].
  exists w1'. auto.
Qed.

Lemma blank_snoc_space e : blank e -> e <> [] -> exists p s, e = p ++ s /\ uspace s.
Proof.
  intros H; induction H as [|e s He Hs IH]; intros Hne; [congruence|].
  destruct (decide (s = [])) as [->|Hs'].
  - exists [], e. rewrite app_nil_r. auto.
  - destruct (IH Hs') as (p & x & -> & Hx). exists (e ++ p), x. rewrite <- app_assoc. auto.
Qed.

Lemma false_word_no_quote t q : false_word t -> quote_char q -> q ∉ t.
Proof.
  intros (a & b & c & d & e & -> & Ha & Hb & Hc & Hd & He) Hq.
  assert (H : forall (l : list str) (x : str), x ∈ l -> forallb (fun e1 => bool_decide (SQ ∉ e1) && bool_decide (DQ ∉ e1)) l = true -> q ∉ x).
  { intros l x Hx Hl. rewrite forallb_forall in Hl. specialize (Hl x (proj1 (elem_of_list_In _ _) Hx)).
    apply andb_true_iff in Hl as [H1 H2]. apply bool_decide_eq_true in H1, H2. destruct Hq as [->| ->]; assumption. }
  rewrite !elem_of_app. intros [X|[X|[X|[X|X]]]].
  - exact (H _ _ Ha ltac:(vm_compute; reflexivity) X).
  - exact (H _ _ Hb ltac:(vm_compute; reflexivity) X).
  - exact (H _ _ Hc ltac:(vm_compute; reflexivity) X).
  - exact (H _ _ Hd ltac:(vm_compute; reflexivity) X).
  - exact (H _ _ He ltac:(vm_compute; reflexivity) X).
Qed.

Lemma cmp_text_truthy x t X eq w2 q R : trimmed x t -> t = X ++ cmp_text eq w2 q R -> quote_char q ->
  (forall L R' eq', ~ comparison t L R' eq') -> evaluate_text x = true.
Proof.
  intros Hx Et Hq Hc. destruct (evaluate_text x) eqn:E; [reflexivity|].
  apply (evaluate_text_truthy _ _ Hx Hc) in E. exfalso.
  assert (Hin : q ∈ t) by (rewrite Et; unfold cmp_text; rewrite !elem_of_app, elem_of_list_singleton; tauto).
  destruct E as [->|E]; [inversion Hin|]. exact (false_word_no_quote _ _ E Hq Hin).
Qed.

(** A blank value: the condition always runs. *)
Lemma blank_value_runs v w1 w2 eq q R : blank v -> gap w1 -> gap w2 -> quote_char q -> q ∉ R ->
  evaluate_text (v ++ w1 ++ cmp_text eq w2 q R) = true.
Proof.
  intros Hv Hw1 Hw2 Hq HR.
  eapply (cmp_text_truthy _ (cmp_text eq w2 q R) [] eq w2 q R); [|reflexivity|exact Hq|].
  - exists (v ++ w1), []. rewrite app_nil_r, <- app_assoc. split; [reflexivity|].
    split; [apply blank_app; [exact Hv|apply gap_blank; exact Hw1]|]. split; [constructor|]. split.
    + intros e r He E. destruct (uspace_shape _ He) as (c & u & -> & _ & _). unfold cmp_text in E.
      apply uspace_elem in He. destruct eq; injection E as <- _; revert He;
        assert (Hall : forallb (fun e1 => negb (has_prefix (lit "=") e1) && negb (has_prefix (lit "!") e1)) space_encs = true) by (vm_compute; reflexivity);
        intros He; rewrite forallb_forall in Hall; specialize (Hall _ (proj1 (elem_of_list_In _ _) He)); discriminate Hall.
    + unfold cmp_text. rewrite !app_assoc. apply not_space_ending; exact Hq.
  - intros L R' eq' Hc. destruct (comparison_of_cmp_text [] _ _ _ _ _ _ _ Hw2 Hq HR Hc) as (w & _ & E & HL & _).
    destruct L; [congruence|discriminate].
Qed.

(** A value with an inner newline: the condition always runs. *)
Lemma newline_value_runs v t w1 w2 eq q R : trimmed v t -> NL ∈ t -> gap w1 -> gap w2 -> quote_char q -> q ∉ R ->
  evaluate_text (v ++ w1 ++ cmp_text eq w2 q R) = true.
Proof.
  intros Hv Hnl Hw1 Hw2 Hq HR. destruct Hv as (a & b & -> & Ha & Hb & Hl & Hr).
  assert (Ht : t <> []) by (intros ->; inversion Hnl).
  pose proof (trimmed_condition a t b w1 eq w2 q R Ha Hb Ht Hl Hw1 Hq) as Htr.
  eapply (cmp_text_truthy _ _ (t ++ b ++ w1) eq w2 q R Htr); [rewrite <- !app_assoc; reflexivity|exact Hq|].
  intros L R' eq' Hc.
  replace (t ++ b ++ w1 ++ cmp_text eq w2 q R) with ((t ++ b ++ w1) ++ cmp_text eq w2 q R) in Hc by (rewrite <- !app_assoc; reflexivity).
  destruct (comparison_of_cmp_text _ _ _ _ _ _ _ _ Hw2 Hq HR Hc) as (w & Hw & E & HL & HnL).
  apply app_eq_inv in E as [(k & E1 & E2)|(k & E1 & E2)].
  - assert (Hk : gap k) by (rewrite E2 in Hw; apply Forall_app in Hw as [Hk _]; exact Hk).
    assert (Hkn : k <> []) by (intros ->; rewrite app_nil_r in E1; subst; contradiction).
    destruct (blank_snoc_space _ (gap_blank _ Hk) Hkn) as (p & x & -> & Hx).
    apply (Hr x (L ++ p) Hx). rewrite <- app_assoc. exact E1.
  - apply HnL. rewrite E1, elem_of_app. left; exact Hnl.
Qed.

(** A reference followed by text without references. *)
Lemma interpolate_ref_plain getenv vars t n v s :
  (forall x, nul_free (getenv x)) -> all_nul_free vars -> ref_text t n -> means getenv (in_map vars) n v ->
  nul_free s -> (forall a b, s <> a ++ lit "${{" ++ b) ->
  interpolate getenv vars (t ++ s) = Ok (v ++ s).
Proof.
  intros Hg Hv Ht Hm Hs Hno. apply interpolate_Ok; [exact Hg|exact Hv| |].
  - unfold nul_free. rewrite elem_of_app. intros [H|H]; [exact (ref_text_nul_free _ _ Ht H)|exact (Hs H)].
  - pose proof (plain_text getenv vars s Hs Hg Hv Hno) as Hp. apply interpolate_Ok in Hp as (ps & Hps & He); [|assumption..].
    exists (PRef n :: ps). split; constructor; assumption.
Qed.
