From Verif Require Import Base Utf8_Model Utf8_Spec Utf8_Proof Out_Model Out_Spec.

(** ** Lines *)
Lemma span_nl l s : nl ∉ l -> span (fun c => negb (bool_decide (c = nl))) (l ++ nl :: s) = (l, nl :: s).
Proof.
  intros H. apply span_app; [|reflexivity]. apply Forall_forall. intros c Hc. rewrite negb_true_iff, bool_decide_eq_false. congruence.
Qed.
Lemma span_no_nl l : nl ∉ l -> span (fun c => negb (bool_decide (c = nl))) l = (l, []).
Proof.
  intros H. rewrite <- (app_nil_r l) at 1. apply span_app; [|exact I]. apply Forall_forall. intros c Hc. rewrite negb_true_iff, bool_decide_eq_false. congruence.
Qed.
Lemma cut s : (nl ∉ s) \/ exists l r, s = l ++ nl :: r /\ nl ∉ l.
Proof.
  induction s as [|c s IH]; [left; apply not_elem_of_nil|]. destruct (decide (c = nl)) as [->|Hc]; [right; exists [], s; split; [reflexivity|apply not_elem_of_nil]|].
  destruct IH as [H|(l & r & -> & H)]; [left; apply not_elem_of_cons; auto|right]. exists (c :: l), r. split; [reflexivity|]. apply not_elem_of_cons. auto.
Qed.

(** [cuts s ls p]: whole lines [ls], then [p] without newline. *)
Inductive cuts : str -> list str -> str -> Prop :=
| cuts_end p : nl ∉ p -> cuts p [] p
| cuts_line l s ls p : nl ∉ l -> cuts s ls p -> cuts (l ++ nl :: s) (l :: ls) p.

Lemma cuts_total s : exists ls p, cuts s ls p.
Proof.
  remember (length s) as n eqn:E. revert s E. induction n as [n IH] using lt_wf_ind. intros s ->.
  destruct (cut s) as [H|(l & r & -> & H)]; [exists [], s; constructor; exact H|].
  destruct (IH (length r)) with (s := r) as (ls & p & Hc); [rewrite app_length; simpl; lia|reflexivity|]. exists (l :: ls), p. constructor; assumption.
Qed.
Lemma app_nl_inj l l' s s' : nl ∉ l -> nl ∉ l' -> l ++ nl :: s = l' ++ nl :: s' -> l = l' /\ s = s'.
Proof.
  revert l'. induction l as [|c l IH]; intros [|c' l'] H H' E; simpl in E.
  - injection E as ->. auto.
  - injection E as E1 E2. subst. exfalso. apply H'. left.
  - injection E as E1 E2. subst. exfalso. apply H. left.
  - injection E as -> E. apply not_elem_of_cons in H as [_ H], H' as [_ H']. destruct (IH l' H H' E) as [-> ->]. auto.
Qed.
Lemma cuts_fun s ls p ls' p' : cuts s ls p -> cuts s ls' p' -> ls = ls' /\ p = p'.
Proof.
  intros H. revert ls' p'. induction H as [p Hp|l s ls p Hl _ IH]; intros ls' p' H'.
  - inversion H'; subst; [auto|]. exfalso. apply Hp. apply elem_of_app. right. left.
  - inversion H' as [q Hq E1 E2|l' s' ls'' q Hl' Hc E]; subst.
    + exfalso. apply Hq. apply elem_of_app. right. left.
    + apply app_nl_inj in E as [-> ->]; [|assumption|assumption]. destruct (IH _ _ Hc) as [-> ->]. auto.
Qed.
Lemma cuts_no_nl s ls p : cuts s ls p -> nl ∉ p.
Proof. induction 1; assumption. Qed.
Lemma cuts_app s ls p d ls' p' : cuts s ls p -> cuts (p ++ d) ls' p' -> cuts (s ++ d) (ls ++ ls') p'.
Proof. induction 1 as [p Hp|l s ls p Hl _ IH]; intros H'; [exact H'|]. rewrite <- app_assoc. simpl. constructor; auto. Qed.
Lemma cuts_lines s ls p : cuts s ls p -> lines s (ls ++ flush p).
Proof.
  induction 1 as [p Hp|l s ls p Hl _ IH]; [|simpl; constructor; assumption]. destruct p; simpl; [constructor|]. constructor; [discriminate|exact Hp].
Qed.
Lemma lines_fun s ls ls' : lines s ls -> lines s ls' -> ls = ls'.
Proof.
  intros H. revert ls'. induction H as [|l Hl Hn|l s ls Hl _ IH]; intros ls' H'.
  - inversion H' as [|l Hl Hn E|l s ls Hl Hs E]; [reflexivity|congruence|]. destruct l; discriminate E.
  - inversion H' as [E|l' Hl' Hn'|l' s ls Hl' Hs E]; subst; [congruence|reflexivity|]. exfalso. apply Hn. apply elem_of_app. right. left.
  - inversion H' as [E|l' Hl' Hn' E|l' s' ls'' Hl' Hs E]; subst.
    + destruct l; discriminate E.
    + exfalso. apply Hn'. apply elem_of_app. right. left.
    + apply app_nl_inj in E as [-> ->]; [|assumption|assumption]. f_equal. apply IH. exact Hs.
Qed.

Lemma process_loop_cuts fuel s : length s <= fuel -> exists ls p, process_loop fuel s = (ls, p) /\ cuts s ls p.
Proof.
  revert s. induction fuel as [|fuel IH]; intros s Hf.
  - destruct s; [|simpl in Hf; lia]. exists [], []. split; [reflexivity|]. constructor. apply not_elem_of_nil.
  - simpl. destruct (cut s) as [H|(l & r & -> & H)].
    + rewrite (span_no_nl _ H). exists [], s. split; [reflexivity|]. constructor. exact H.
    + rewrite (span_nl _ _ H). destruct (IH r) as (ls & p & E & Hc); [rewrite app_length in Hf; simpl in Hf; lia|]. rewrite E. exists (l :: ls), p. split; [reflexivity|]. constructor; assumption.
Qed.
Lemma process_cuts p d : exists ls p', process p d = (ls, p') /\ cuts (p ++ d) ls p'.
Proof. apply process_loop_cuts. reflexivity. Qed.

Definition only_writes (ops : list wop) : Prop := Forall (fun o => match o with WWrite _ => True | WFlush => False end) ops.

Lemma wcalls_cuts p ops : nl ∉ p -> only_writes ops -> exists ls p', wcalls p ops = (ls, p') /\ cuts (p ++ written ops) ls p'.
Proof.
  intros Hp Hops. revert p Hp. induction Hops as [|o ops Ho _ IH]; intros p Hp.
  - exists [], p. split; [reflexivity|]. unfold written. simpl. rewrite app_nil_r. constructor. exact Hp.
  - destruct o as [d|]; [|contradiction]. simpl. destruct (process_cuts p d) as (l1 & p1 & E1 & C1). rewrite E1.
    destruct (IH p1) as (l2 & p2 & E2 & C2); [eapply cuts_no_nl; exact C1|]. rewrite E2. exists (l1 ++ l2), p2. split; [reflexivity|].
    unfold written. simpl. rewrite app_assoc. eapply cuts_app; eassumption.
Qed.
Lemma wcalls_app p a b : wcalls p (a ++ b) = let '(l1, p1) := wcalls p a in let '(l2, p2) := wcalls p1 b in (l1 ++ l2, p2).
Proof.
  revert p. induction a as [|o a IH]; intros p; simpl; [destruct (wcalls p b); reflexivity|]. destruct (wcall p o) as [l1 p1]. rewrite IH.
  destruct (wcalls p1 a) as [l2 p2]. destruct (wcalls p2 b) as [l3 p3]. rewrite app_assoc. reflexivity.
Qed.
(** Writes in any pieces, then a flush. *)
Lemma wcalls_lines ops : only_writes ops -> exists ls, wcalls [] (ops ++ [WFlush]) = (ls, []) /\ lines (written ops) ls.
Proof.
  intros H. rewrite wcalls_app. destruct (wcalls_cuts [] ops (not_elem_of_nil _) H) as (ls & p & E & C). rewrite E. simpl. rewrite app_nil_r.
  exists (ls ++ flush p). split; [reflexivity|]. apply cuts_lines. exact C.
Qed.

(** ** Carriage returns *)
Lemma resolve_cr_none s : cr ∉ s -> resolve_cr s = s.
Proof.
  induction s as [|c s IH]; intros H; [reflexivity|]. apply not_elem_of_cons in H as [H1 H2]. simpl. destruct (decide (cr ∈ s)); [contradiction|]. destruct (decide (c = cr)); [congruence|reflexivity].
Qed.
Lemma resolve_cr_last a b : cr ∉ b -> resolve_cr (a ++ cr :: b) = b.
Proof.
  intros H. induction a as [|c a IH]; simpl.
  - destruct (decide (cr ∈ b)); [contradiction|]. destruct (decide (cr = cr)); [reflexivity|congruence].
  - destruct (decide (cr ∈ a ++ cr :: b)) as [_|Hn]; [exact IH|]. exfalso. apply Hn. apply elem_of_app. right. left.
Qed.

(** ** Control characters *)
Lemma unsafe_spec r : unsafe_control r = true <-> (r < 32 /\ r <> 9 /\ r <> 27)%N.
Proof. unfold unsafe_control. rewrite !andb_true_iff, !negb_true_iff, N.ltb_lt, !N.eqb_neq. tauto. Qed.
Lemma concat_elem (c : ascii) (L : list str) : c ∈ concat L -> exists x, x ∈ L /\ c ∈ x.
Proof.
  induction L as [|x L IH]; simpl; intros H; [inversion H|]. apply elem_of_app in H as [H|H]; [exists x; split; [left|exact H]|].
  destruct (IH H) as (y & Hy & Hc). exists y. split; [right; exact Hy|exact Hc].
Qed.
Lemma of_runes_low l c : c ∈ of_runes l -> (byte c < 128)%N -> byte c ∈ l.
Proof.
  intros H Hb. unfold of_runes in H. apply concat_elem in H as (x & Hx & Hc). apply elem_of_list_In, in_map_iff in Hx as (r & <- & Hr). apply elem_of_list_In in Hr.
  destruct (N.lt_ge_cases r 128) as [Hlt|Hge].
  - rewrite encode_ascii in Hc by exact Hlt. apply elem_of_list_singleton in Hc as ->. rewrite byte_of; [exact Hr|]. eapply N.lt_trans; [exact Hlt|reflexivity].
  - pose proof (encode_high _ Hge) as Hh. rewrite Forall_forall in Hh. specialize (Hh _ Hc). simpl in Hh. lia.
Qed.
Lemma strip_control_safe s c : c ∈ strip_control s -> unsafe_control (byte c) = false.
Proof.
  unfold strip_control. destruct (existsb unsafe_control (runes s)) eqn:E; intros H; destruct (unsafe_control (byte c)) eqn:Eu; try reflexivity; exfalso;
    pose proof (proj1 (unsafe_spec _) Eu) as (Hlt & _); assert (Hlt' : (byte c < 128)%N) by lia.
  - apply of_runes_low in H; [|exact Hlt']. apply elem_of_list_In, filter_In in H as [_ H]. rewrite Eu in H. discriminate H.
  - apply low_rune in H; [|exact Hlt']. apply elem_of_list_In in H. rewrite <- not_true_iff_false in E. apply E. apply existsb_exists. eauto.
Qed.
Lemma strip_control_text s l : text s l -> text (strip_control s) (List.filter (fun r => negb (unsafe_control r)) l).
Proof.
  intros H. pose proof (runes_of_text _ _ H) as E. unfold strip_control. rewrite E. destruct H as [Hl Hs]. destruct (existsb unsafe_control l) eqn:Ex.
  - split; [|reflexivity]. apply Forall_forall. intros x Hx. apply elem_of_list_In, filter_In in Hx as [Hx _]. apply elem_of_list_In in Hx. rewrite Forall_forall in Hl. auto.
  - assert (List.filter (fun r => negb (unsafe_control r)) l = l) as ->; [|split; assumption].
    clear -Ex. induction l as [|r l IH]; [reflexivity|]. simpl in *. apply orb_false_iff in Ex as [-> Ex]. simpl. f_equal. auto.
Qed.
Lemma strip_control_none s : Forall (fun c => unsafe_control (byte c) = false) s -> strip_control s = s.
Proof.
  intros H. unfold strip_control. destruct (existsb unsafe_control (runes s)) eqn:Ex; [|reflexivity]. exfalso.
  apply existsb_exists in Ex as (r & Hr & Hu). apply elem_of_list_In in Hr. pose proof (units_each s) as He. unfold runes in Hr. apply elem_of_list_fmap in Hr as (u & -> & Hin).
  rewrite Forall_forall in He. specialize (He _ Hin). pose proof (proj1 (unsafe_spec _) Hu) as (Hlt & _). destruct He as [[_ E]|(E & _)]; [|rewrite E in Hlt; unfold rune_error in Hlt; lia].
  assert (Hc : of_byte u.1 ∈ s).
  { rewrite <- (units_concat s). apply elem_of_list_In, in_concat. exists u.2. split; [apply elem_of_list_In, elem_of_list_fmap; eauto|]. rewrite E, encode_ascii by lia. left. reflexivity. }
  rewrite Forall_forall in H. specialize (H _ Hc). simpl in H. rewrite byte_of in H by lia. congruence.
Qed.

Lemma contains_elem c s : contains [c] s = true <-> c ∈ s.
Proof.
  induction s as [|d s IH]; simpl.
  - split; [discriminate|inversion 1].
  - rewrite orb_true_iff, IH, elem_of_cons. unfold has_prefix. simpl. destruct (decide (c = d)); split; intuition congruence.
Qed.
Lemma contains_app p s : contains p s = true <-> exists a b, s = a ++ p ++ b.
Proof.
  induction s as [|d s IH]; simpl.
  - rewrite orb_false_r, has_prefix_true. split; [intros [r H]; exists [], r; exact H|]. intros (a & b & H). symmetry in H. apply app_eq_nil in H as [_ H]. exists b. symmetry. exact H.
  - rewrite orb_true_iff, has_prefix_true, IH. split.
    + intros [[r H]|(a & b & ->)]; [exists [], r; exact H|]. exists (d :: a), b. reflexivity.
    + intros ([|d' a] & b & H); [left; exists b; exact H|right]. injection H as -> ->. eauto.
Qed.

(** ** Keys *)
Lemma digit_inj a b : a < 10 -> b < 10 -> digit a = digit b -> a = b.
Proof.
  intros Ha Hb H. unfold digit in H. apply (f_equal nat_of_ascii) in H. rewrite !nat_ascii_embedding in H by lia. lia.
Qed.
Lemma digit_not_dot a : a < 10 -> digit a <> "."%char.
Proof. intros Ha H. unfold digit in H. apply (f_equal nat_of_ascii) in H. rewrite nat_ascii_embedding in H by lia. change (nat_of_ascii ".") with 46 in H. lia. Qed.
Lemma itoa_enough f n : n < f -> itoa_fuel f n = itoa n.
Proof.
  unfold itoa. remember (S n) as m eqn:Em. assert (Hm : n < m) by lia. clear Em. revert f m Hm. induction n as [n IH] using lt_wf_ind. intros f m Hm Hf.
  destruct f; [lia|]. destruct m; [lia|]. cbn [itoa_fuel]. destruct (n <? 10) eqn:E; [reflexivity|]. apply Nat.ltb_ge in E. f_equal.
  assert (n / 10 < n) by (apply Nat.div_lt; lia). apply IH; lia.
Qed.
Lemma itoa_step n : itoa n = if n <? 10 then [digit n] else itoa (n / 10) ++ [digit (n mod 10)].
Proof.
  unfold itoa at 1. cbn [itoa_fuel]. destruct (n <? 10) eqn:E; [reflexivity|]. f_equal. apply Nat.ltb_ge in E. apply itoa_enough. apply Nat.div_lt; lia.
Qed.
Lemma itoa_ne n : itoa n <> [].
Proof. rewrite itoa_step. destruct (n <? 10); [discriminate|]. intros H. apply app_eq_nil in H as [_ H]. discriminate H. Qed.
Lemma itoa_inj a b : itoa a = itoa b -> a = b.
Proof.
  revert b. induction a as [a IH] using lt_wf_ind. intros b. rewrite (itoa_step a), (itoa_step b).
  destruct (a <? 10) eqn:Ea; destruct (b <? 10) eqn:Eb; rewrite ?Nat.ltb_lt, ?Nat.ltb_ge in *; intros H.
  - injection H as H. apply digit_inj in H; lia.
  - change [digit a] with ([] ++ [digit a]) in H. apply app_inj_tail in H as [H _]. exfalso. exact (itoa_ne _ (eq_sym H)).
  - change [digit b] with ([] ++ [digit b]) in H. apply app_inj_tail in H as [H _]. exfalso. exact (itoa_ne _ H).
  - apply app_inj_tail in H as [H1 H2]. apply IH in H1; [|apply Nat.div_lt; lia]. apply digit_inj in H2; [|apply Nat.mod_upper_bound; lia|apply Nat.mod_upper_bound; lia].
    rewrite (Nat.div_mod a 10), (Nat.div_mod b 10) by lia. congruence.
Qed.
Lemma itoa_no_dot n : "."%char ∉ itoa n.
Proof.
  induction n as [n IH] using lt_wf_ind. rewrite itoa_step. destruct (n <? 10) eqn:E; [apply Nat.ltb_lt in E|apply Nat.ltb_ge in E].
  - rewrite elem_of_list_singleton. intros H. exact (digit_not_dot n E (eq_sym H)).
  - rewrite elem_of_app, elem_of_list_singleton. intros [H|H]; [|exact (digit_not_dot (n mod 10) ltac:(apply Nat.mod_upper_bound; lia) (eq_sym H))]. revert H. apply IH. apply Nat.div_lt; lia.
Qed.
Lemma dot_split a b x y : "."%char ∉ a -> "."%char ∉ b -> a ++ "."%char :: x = b ++ "."%char :: y -> a = b /\ x = y.
Proof.
  revert b. induction a as [|c a IH]; intros [|d b] Ha Hb H; simpl in H.
  - injection H as ->. auto.
  - injection H as <- H. exfalso. apply Hb. left.
  - injection H as -> H. exfalso. apply Ha. left.
  - injection H as -> H. apply not_elem_of_cons in Ha as [_ Ha], Hb as [_ Hb]. destruct (IH b Ha Hb H) as [-> ->]. auto.
Qed.
Lemma join_cons x r : r <> [] -> join_dots (x :: r) = x ++ "."%char :: join_dots r.
Proof. destruct r; [congruence|reflexivity]. Qed.
Lemma path_to_key_inj p q : path_to_key p = path_to_key q -> p = q.
Proof.
  unfold path_to_key. revert q. induction p as [|a p IH]; intros [|b q] H; [reflexivity| | |].
  - exfalso. simpl in H. destruct q; simpl in H; [exact (itoa_ne b (eq_sym H))|]. destruct (itoa b); discriminate H.
  - exfalso. simpl in H. destruct p; simpl in H; [exact (itoa_ne a H)|]. destruct (itoa a); discriminate H.
  - rewrite !map_cons in H. destruct p as [|a' p], q as [|b' q].
    + simpl in H. apply itoa_inj in H as ->. reflexivity.
    + exfalso. rewrite (join_cons (itoa b)) in H by discriminate. simpl in H. apply (itoa_no_dot a). rewrite H. apply elem_of_app. right. left.
    + exfalso. rewrite (join_cons (itoa a)) in H by discriminate. simpl in H. apply (itoa_no_dot b). rewrite <- H. apply elem_of_app. right. left.
    + rewrite (join_cons (itoa a)), (join_cons (itoa b)) in H by discriminate. apply dot_split in H as [H1 H2]; [|apply itoa_no_dot|apply itoa_no_dot]. apply itoa_inj in H1 as ->. f_equal. apply IH. exact H2.
Qed.
Lemma path_to_key_snoc p i : p <> [] -> path_to_key (p ++ [i]) = path_to_key p ++ "."%char :: itoa i.
Proof.
  unfold path_to_key. rewrite map_app. change (map itoa [i]) with [itoa i]. assert (H : p <> [] -> map itoa p <> []) by (destruct p; simpl; congruence).
  intros Hp. specialize (H Hp). clear Hp. revert H. generalize (map itoa p). clear p. intros l. induction l as [|a l IH]; [congruence|]. intros _. destruct l as [|b l]; [reflexivity|].
  rewrite <- app_comm_cons. rewrite join_cons by discriminate. rewrite IH by discriminate. rewrite (join_cons a (b :: l)) by discriminate. rewrite <- app_assoc. reflexivity.
Qed.

(** ** Colours *)
Lemma iter_dim_le n c : iter_dim n c <= c.
Proof. revert c. induction n as [|n IH]; intros c; simpl; [lia|]. etransitivity; [apply IH|]. unfold dim1. apply Nat.div_le_upper_bound; lia. Qed.
