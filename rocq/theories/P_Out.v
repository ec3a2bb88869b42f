(** Theorems about the output of parallel items: C36-C42. *)
From Verif Require Import Base Utf8_Model Utf8_Spec Utf8_Proof Out_Model Out_Spec Out_Proof.

(** ** C36 *)

(** Any pieces, then a flush: the lines of the whole, each treated by itself. *)
Theorem C36_chunking_does_not_matter chunks : exists ls, wcalls [] (map WWrite chunks ++ [WFlush]) = (ls, []) /\ lines (concat chunks) ls.
Proof.
  destruct (wcalls_lines (map WWrite chunks)) as (ls & E & H).
  { apply Forall_map. apply Forall_forall. auto. }
  exists ls. split; [exact E|]. replace (concat chunks) with (written (map WWrite chunks)); [exact H|]. unfold written. rewrite map_map, map_id. reflexivity.
Qed.
(** The lines of a stream are determined by it, and nothing of it is lost. *)
Theorem C36_lines_determined s ls ls' : lines s ls -> lines s ls' -> ls = ls'.
Proof. apply lines_fun. Qed.
Theorem C36_nothing_lost s ls : lines s ls -> s = concat (map (fun l => l ++ [nl]) ls) \/ s ++ [nl] = concat (map (fun l => l ++ [nl]) ls).
Proof.
  induction 1 as [|l Hl Hn|l s ls Hl _ IH]; [left; reflexivity|right; simpl; rewrite app_nil_r; reflexivity|]. simpl. rewrite <- app_assoc. simpl.
  destruct IH as [<-|<-]; [left; reflexivity|right]. rewrite <- app_assoc. reflexivity.
Qed.
(** Lines already complete are emitted without waiting for more. *)
Theorem C36_lines_are_emitted_at_once chunks : exists ls p, wcalls [] (map WWrite chunks) = (ls, p) /\ nl ∉ p /\ concat chunks = concat (map (fun l => l ++ [nl]) ls) ++ p /\ Forall (fun l => nl ∉ l) ls.
Proof.
  destruct (wcalls_cuts [] (map WWrite chunks) (not_elem_of_nil _)) as (ls & p & E & H). { apply Forall_map. apply Forall_forall. auto. }
  exists ls, p. split; [exact E|]. split; [eapply cuts_no_nl; exact H|].
  assert (Ew : concat chunks = [] ++ written (map WWrite chunks)) by (unfold written; rewrite map_map, map_id; reflexivity). rewrite Ew. clear -H.
  induction H as [p Hp|l s ls p Hl _ [IH1 IH2]]; [split; [reflexivity|constructor]|]. split; [|constructor; assumption]. simpl. rewrite <- !app_assoc. simpl. rewrite IH1. reflexivity.
Qed.
Example C36_met : wcalls [] (map WWrite [lit "on"; lit "e" ++ [nl; nl] ++ lit "t"; []; lit "wo"] ++ [WFlush]) = ([lit "one"; []; lit "two"], []).
Proof. reflexivity. Qed.

(** ** C38, C39 *)

(** Whatever the line: no control character but tab and the escape character. *)
Theorem C38_no_control a line c : c ∈ shown a false line -> harmless c \/ c = esc.
Proof.
  unfold shown, clean_line, sanitize_line. intros H.
  assert (Hs : unsafe_control (byte c) = false) by (destruct (_ && _); eapply strip_control_safe; exact H).
  destruct (N.lt_ge_cases (byte c) 32) as [Hlt|Hge].
  - destruct (N.eq_dec (byte c) 9) as [E|E]; [left; right|].
    + rewrite <- (of_byte_byte c), E. reflexivity.
    + destruct (N.eq_dec (byte c) 27) as [E2|E2]; [right; rewrite <- (of_byte_byte c), E2; reflexivity|]. exfalso.
      assert (unsafe_control (byte c) = true) by (apply unsafe_spec; auto). congruence.
  - left. left. unfold code, byte in *. unfold nat_of_ascii. lia.
Qed.
(** Without escape introducers in the line there are none in what is emitted. *)
Theorem C38_no_escape a line c : esc ∉ line -> contains (encode_rune 155) line = false -> c ∈ shown a false line -> harmless c.
Proof.
  intros He H9 H. destruct (C38_no_control _ _ _ H) as [? | ->]; [assumption|]. exfalso.
  assert (Hcr : forall x, x ∈ resolve_cr line -> x ∈ line).
  { clear. induction line as [|d l IH]; simpl; [auto|]. intros x. destruct (decide (cr ∈ l)); [right; auto|]. destruct (decide (d = cr)); [right; auto|auto]. }
  revert H. unfold shown, clean_line, sanitize_line. destruct (contains [esc] (resolve_cr line)) eqn:E; [intros _; apply contains_elem in E; apply He; auto|].
  destruct (contains (encode_rune 155) (resolve_cr line)) eqn:E2.
  { intros _; exfalso. apply contains_app in E2 as (x & y & Exy).
    assert (Hsuf : exists z, line = z ++ resolve_cr line). { clear. induction line as [|d l [z IH]]; [exists []; reflexivity|]. simpl. destruct (decide (cr ∈ l)); [exists (d :: z); simpl; congruence|]. destruct (decide (d = cr)); [exists [d]; reflexivity|exists []; reflexivity]. }
    destruct Hsuf as [z Hz]. assert (contains (encode_rune 155) line = true); [|congruence]. apply contains_app. exists (z ++ x), y. rewrite Hz at 1. rewrite Exy at 1. rewrite app_assoc. reflexivity. }
  simpl. intros H. unfold strip_control in H. destruct (existsb _ _) in H.
  - apply of_runes_low in H; [|reflexivity]. apply elem_of_list_In, filter_In in H as [H _]. apply elem_of_list_In in H.
    unfold runes in H. apply elem_of_list_fmap in H as (u & Eu & Hu). pose proof (units_each (resolve_cr line)) as Hall. rewrite Forall_forall in Hall. specialize (Hall _ Hu).
    rewrite <- Eu in Hall. destruct Hall as [[_ Hx]|(Hx & _)]; [|discriminate Hx]. apply He. apply Hcr. rewrite <- (units_concat (resolve_cr line)).
    apply elem_of_list_In, in_concat. exists u.2. split; [apply elem_of_list_In, elem_of_list_fmap; eauto|]. rewrite Hx. left. reflexivity.
  - apply He. apply Hcr. exact H.
Qed.
(** Text: exactly its harmless characters stay. *)
Theorem C38_text a line l : text line l -> cr ∉ line -> esc ∉ line -> contains (encode_rune 155) line = false ->
  text (shown a false line) (List.filter (fun r => (32 <=? r)%N || (r =? 9)%N) l).
Proof.
  intros Ht Hcr He H9. unfold shown, clean_line, sanitize_line. rewrite (resolve_cr_none _ Hcr).
  destruct (contains [esc] line) eqn:E; [apply contains_elem in E; contradiction|]. rewrite H9. simpl.
  replace (List.filter _ l) with (List.filter (fun r => negb (unsafe_control r)) l); [apply strip_control_text; exact Ht|].
  assert (H27 : 27%N ∉ l).
  { intros Hin. apply He. destruct Ht as [_ ->]. apply elem_of_list_In, in_concat. exists [esc]. split; [|left; reflexivity]. apply in_map_iff. exists 27%N. split; [reflexivity|apply elem_of_list_In; exact Hin]. }
  clear -H27. induction l as [|r l IH]; [reflexivity|]. apply not_elem_of_cons in H27 as [Hr H27]. simpl. rewrite IH by exact H27.
  assert (negb (unsafe_control r) = (32 <=? r)%N || (r =? 9)%N) as ->; [|reflexivity]. unfold unsafe_control.
  destruct (N.ltb_spec r 32), (N.leb_spec 32 r), (N.eqb_spec r 9), (N.eqb_spec r 27); simpl; try reflexivity; try lia; congruence.
Qed.
(** Bytes of any kind stay as they are if there is nothing to remove. *)
Theorem C38_unchanged a line : Forall harmless line -> contains (encode_rune 155) line = false -> shown a false line = line.
Proof.
  intros H H9.
  assert (Hno : forall c, c ∈ line -> c <> cr /\ c <> esc /\ unsafe_control (byte c) = false).
  { intros c Hc. rewrite Forall_forall in H. destruct (H c Hc) as [Hge | ->]; [|split; [discriminate|split; [discriminate|reflexivity]]].
    assert (32 <= byte c)%N by (unfold code, byte, nat_of_ascii in *; lia).
    split; [intros ->; unfold byte in *; simpl in *; lia|]. split; [intros ->; unfold byte in *; simpl in *; lia|].
    destruct (unsafe_control (byte c)) eqn:E; [|reflexivity]. apply unsafe_spec in E. lia. }
  unfold shown, clean_line, sanitize_line. rewrite resolve_cr_none by (intros Hc; destruct (Hno _ Hc); congruence).
  destruct (contains [esc] line) eqn:E; [apply contains_elem in E; destruct (Hno _ E) as (_ & ? & _); congruence|]. rewrite H9. simpl.
  apply strip_control_none. apply Forall_forall. intros c Hc. apply Hno. exact Hc.
Qed.
(** Sequences that are neither styles nor text leave no trace, wherever they are: the
    line is what it would be if the library had not found them. *)
Theorem C38_sequences_dropped a a' line l1 l2 k q :
  a_pieces a (resolve_cr line) = l1 ++ (k, q) :: l2 -> k = PCsi \/ k = PEscape -> a_pieces a' (resolve_cr line) = l1 ++ l2 -> shown a false line = shown a' false line.
Proof.
  intros E Hk E'. unfold shown, clean_line, sanitize_line. rewrite E, E', !map_app, !concat_app. destruct Hk as [-> | ->]; reflexivity.
Qed.
(** Styles and text stay as they are. *)
Theorem C38_styles_kept a line : esc ∈ resolve_cr line -> Forall (fun p => p.1 = PStyle \/ p.1 = PText) (a_pieces a (resolve_cr line)) ->
  concat (a_pieces a (resolve_cr line)).*2 = resolve_cr line -> Forall (fun c => harmless c \/ c = esc) (resolve_cr line) -> shown a false line = resolve_cr line.
Proof.
  intros He HP Hc Hl. unfold shown, clean_line, sanitize_line. apply contains_elem in He. rewrite He. cbn [negb andb].
  assert (concat (map (fun p => match p.1 with PStyle | PText => p.2 | _ => [] end) (a_pieces a (resolve_cr line))) = resolve_cr line) as ->.
  { rewrite <- Hc at 2. f_equal. clear -HP. induction HP as [|[k q] l [H|H] _ IH]; cbn in *; [reflexivity|subst k; rewrite IH; reflexivity..]. }
  apply strip_control_none. eapply Forall_impl; [exact Hl|]. intros c Hh. destruct (unsafe_control (byte c)) eqn:E; [|reflexivity]. apply unsafe_spec in E as (H1 & H2 & H3).
  exfalso. destruct Hh as [[Hg | ->] | ->]; [|apply H2; reflexivity|apply H3; reflexivity]. unfold code, byte, nat_of_ascii in *. lia.
Qed.
(** A style, a cursor movement and text, by a library that knows these. *)
Definition toy_ansi : ansi_lib :=
  AnsiLib (fun _ => [(PStyle, esc :: lit "[1m"); (PText, lit "50%"); (PCsi, esc :: lit "[2K"); (PText, [chr 7] ++ lit "ok")]) (fun s => s).
Example C38_sequences_met : shown toy_ansi false ((esc :: lit "[1m50%") ++ (esc :: lit "[2K") ++ [chr 7] ++ lit "ok") = (esc :: lit "[1m50%ok") /\
  shown (AnsiLib (fun _ => [(PStyle, esc :: lit "[1m"); (PText, lit "50%")]) (fun s => s)) false (esc :: lit "[1m50%") = esc :: lit "[1m50%".
Proof. split; vm_compute; reflexivity. Qed.
(** But stray bytes are replaced as soon as there is something to remove. *)
Example C38_stray_bytes a : shown a false [chr 200; chr 7] = encode_rune 65533 /\ shown a false [chr 200] = [chr 200].
Proof. split; reflexivity. Qed.
Example C38_met a : text ([chr 7] ++ lit "h" ++ encode_rune 228 ++ [chr 9; chr 0]) [7; 104; 228; 9; 0]%N /\
  shown a false ([chr 7] ++ lit "h" ++ encode_rune 228 ++ [chr 9; chr 0]) = lit "h" ++ encode_rune 228 ++ [chr 9].
Proof. split; [|reflexivity]. split; [|reflexivity]. repeat constructor. Qed.

(** C39 is false of every line that is not empty: a carriage return before the
    newline removes the whole text. *)
Theorem C39_crlf_loses_the_line a strip w : shown a strip (w ++ [cr]) = clean_line a strip [].
Proof. unfold shown. rewrite resolve_cr_last by apply not_elem_of_nil. reflexivity. Qed.
Theorem C39_refuted : exists w, forall a, wcalls [] [WWrite (w ++ [cr; nl])] = ([w ++ [cr]], []) /\ wcalls [] [WWrite (w ++ [nl])] = ([w], []) /\ shown a false w = w /\ shown a false (w ++ [cr]) <> shown a false w.
Proof. exists (lit "ok"). intros a. split; [reflexivity|]. split; [reflexivity|]. split; [reflexivity|]. vm_compute. discriminate. Qed.
(** What is emitted: the text after the last carriage return. *)
Theorem C39_after_last_return_partial a strip w v : cr ∉ v -> shown a strip (w ++ cr :: v) = clean_line a strip v /\ shown a strip v = clean_line a strip v.
Proof. intros H. unfold shown. rewrite resolve_cr_last, resolve_cr_none by exact H. auto. Qed.

(** ** C37 *)
Section C37.
  Context (a : ansi_lib) (ws : list writer) (opss : list (list wop)) (Hlen : length opss = length ws).

  Definition prefix_of (i : nat) : str := match ws !! i with Some w => w_prefix w | None => [] end.
  Definition goes_to (d : nat) (e : nat * str) : bool := match ws !! e.1 with Some w => w_to w =? d | None => false end.
  (** What of the current call has not reached destination [d] yet. *)
  Definition outstanding (s : out_state) (d : nat) : str :=
    match s_lock s with
    | None => []
    | Some i => match ws !! i, s_writers s !! i with Some w, Some x => if w_to w =? d then s_pending x else [] | _, _ => [] end
    end.

  Definition out_inv (s : out_state) (log : list (nat * str)) : Prop :=
    length (s_writers s) = length ws /\
    (forall d, s_dest s d ++ outstanding s d = rendered prefix_of (List.filter (goes_to d) log)) /\
    (forall i x, s_writers s !! i = Some x -> s_lock s <> Some i -> s_pending x = []) /\
    (forall i ops w x, opss !! i = Some ops -> ws !! i = Some w -> s_writers s !! i = Some x ->
       exists done ls, ops = done ++ s_todo x /\ wcalls [] done = (ls, s_partial x) /\ of_writer i log = map (shown a (w_stripped w)) ls).

  Lemma rendered_app pre l1 l2 : rendered pre (l1 ++ l2) = rendered pre l1 ++ rendered pre l2.
  Proof. unfold rendered. rewrite map_app, concat_app. reflexivity. Qed.
  Lemma of_writer_app i l1 l2 : of_writer i (l1 ++ l2) = of_writer i l1 ++ of_writer i l2.
  Proof. unfold of_writer. rewrite List.filter_app, fmap_app. reflexivity. Qed.

  Definition tagged (i : nat) (w : writer) (ls : list str) : list (nat * str) := map (fun l => (i, shown a (w_stripped w) l)) ls.
  Lemma tagged_to i w ls d : ws !! i = Some w -> List.filter (goes_to d) (tagged i w ls) = if w_to w =? d then tagged i w ls else [].
  Proof.
    intros Hw. unfold tagged. induction ls as [|l ls IH]; simpl; [destruct (_ =? _); reflexivity|]. unfold goes_to at 1. simpl. rewrite Hw, IH. destruct (w_to w =? d); reflexivity.
  Qed.
  Lemma tagged_rendered i w ls : ws !! i = Some w -> rendered prefix_of (tagged i w ls) = concat (map (line_bytes a w) ls).
  Proof.
    intros Hw. unfold rendered, tagged. rewrite map_map. f_equal. apply map_ext. intros l. simpl. unfold prefix_of, line_bytes. rewrite Hw. reflexivity.
  Qed.
  Lemma tagged_same i w ls : of_writer i (tagged i w ls) = map (shown a (w_stripped w)) ls.
  Proof. unfold of_writer, tagged. induction ls as [|l ls IH]; [reflexivity|]. simpl. rewrite Nat.eqb_refl. simpl. f_equal. exact IH. Qed.
  Lemma tagged_other i j w ls : i <> j -> of_writer j (tagged i w ls) = [].
  Proof. intros Hij. unfold of_writer, tagged. induction ls as [|l ls IH]; [reflexivity|]. simpl. destruct (Nat.eqb_spec i j); [contradiction|exact IH]. Qed.

  Lemma out_inv_step s s' log : out_inv s log -> out_step a ws s s' -> exists log', out_inv s' log'.
  Proof.
    intros (I1 & I2 & I3 & I4) Hs. destruct Hs as [l d i w o todo p ls p' Hw Hl Hc|l d i w todo p c rest Hw Hl|l d i todo p Hl]; simpl in *.
    - exists (log ++ tagged i w ls). split; [simpl; rewrite insert_length; exact I1|]. split; [|split].
      + intros e. unfold outstanding. simpl. rewrite Hw, list_lookup_insert by (eapply lookup_lt_Some; exact Hl). simpl.
        rewrite List.filter_app, rendered_app, tagged_to by exact Hw. specialize (I2 e). unfold outstanding in I2. simpl in I2. rewrite app_nil_r in I2. rewrite <- I2. f_equal.
        destruct (w_to w =? e); [symmetry; apply tagged_rendered; exact Hw|reflexivity].
      + simpl. intros j x Hx Hj. rewrite list_lookup_insert_ne in Hx by congruence. eapply I3; [exact Hx|discriminate].
      + simpl. intros j ops w' x Ho Hw' Hx. destruct (decide (i = j)) as [<-|Hij].
        * rewrite list_lookup_insert in Hx by (eapply lookup_lt_Some; exact Hl). injection Hx as <-. rewrite Hw in Hw'. injection Hw' as <-. simpl.
          destruct (I4 i ops w _ Ho Hw Hl) as (done & ls0 & E1 & E2 & E3). simpl in *. exists (done ++ [o]), (ls0 ++ ls). split; [rewrite E1, <- app_assoc; reflexivity|].
          split; [rewrite wcalls_app, E2; simpl; rewrite Hc, app_nil_r; reflexivity|]. rewrite of_writer_app, E3, tagged_same, map_app. reflexivity.
        * rewrite list_lookup_insert_ne in Hx by exact Hij. destruct (I4 j ops w' x Ho Hw' Hx) as (done & ls0 & E1 & E2 & E3). exists done, ls0. split; [exact E1|]. split; [exact E2|].
          rewrite of_writer_app, tagged_other, app_nil_r by exact Hij. exact E3.
    - exists log. split; [simpl; rewrite insert_length; exact I1|]. split; [|split].
      + intros e. specialize (I2 e). unfold outstanding in *. simpl in *. rewrite Hw, Hl in I2. rewrite Hw, list_lookup_insert by (eapply lookup_lt_Some; exact Hl). simpl in *.
        destruct (Nat.eqb_spec (w_to w) e) as [->|Hne]; destruct (decide _) as [E|E]; try congruence. rewrite <- app_assoc. exact I2.
      + simpl. intros j x Hx Hj. rewrite list_lookup_insert_ne in Hx by congruence. eapply I3; [exact Hx|exact Hj].
      + simpl. intros j ops w' x Ho Hw' Hx. destruct (decide (i = j)) as [<-|Hij].
        * rewrite list_lookup_insert in Hx by (eapply lookup_lt_Some; exact Hl). injection Hx as <-. simpl. exact (I4 i ops w' _ Ho Hw' Hl).
        * rewrite list_lookup_insert_ne in Hx by exact Hij. exact (I4 j ops w' x Ho Hw' Hx).
    - exists log. split; [exact I1|]. split; [|split].
      + intros e. specialize (I2 e). unfold outstanding in *. simpl in *. rewrite Hl in I2. simpl in I2. destruct (ws !! i) as [w|]; [destruct (w_to w =? e); exact I2|exact I2].
      + simpl. intros j x Hx _. destruct (decide (i = j)) as [<-|Hij]; [rewrite Hl in Hx; injection Hx as <-; reflexivity|]. eapply I3; [exact Hx|congruence].
      + exact I4.
  Qed.
  Lemma out_inv_start : out_inv (out_start opss) [].
  Proof.
    split; [simpl; rewrite map_length; exact Hlen|]. split; [reflexivity|]. split.
    - simpl. intros i x Hx _. rewrite list_lookup_fmap in Hx. destruct (opss !! i); [injection Hx as <-; reflexivity|discriminate Hx].
    - simpl. intros i ops w x Ho Hw Hx. rewrite list_lookup_fmap, Ho in Hx. injection Hx as <-. exists [], []. auto.
  Qed.
  Lemma out_inv_reach s : rtc (out_step a ws) (out_start opss) s -> exists log, out_inv s log.
  Proof.
    revert s. refine (rtc_ind_r _ _ _ _); [exists []; exact out_inv_start|]. intros s s' _ Hs [log H]. eapply out_inv_step; eassumption.
  Qed.

  (** At every moment, in every order: the destinations hold whole prefixed lines,
      but for the line being written; the lines of each writer are those of its
      calls so far, in order. *)
  Theorem C37_whole_lines s : rtc (out_step a ws) (out_start opss) s -> exists log,
    (forall d, s_dest s d ++ outstanding s d = rendered prefix_of (List.filter (goes_to d) log)) /\
    forall i ops w, opss !! i = Some ops -> ws !! i = Some w ->
      exists done todo ls p, ops = done ++ todo /\ wcalls [] done = (ls, p) /\ of_writer i log = map (shown a (w_stripped w)) ls.
  Proof.
    intros Hr. destruct (out_inv_reach s Hr) as [log (I1 & I2 & _ & I4)]. exists log. split; [exact I2|]. intros i ops w Ho Hw.
    destruct (lookup_lt_is_Some_2 (s_writers s) i) as [x Hx]; [rewrite I1; eapply lookup_lt_Some; exact Hw|].
    destruct (I4 i ops w x Ho Hw Hx) as (done & ls & E1 & E2 & E3). eauto 10.
  Qed.

  (** At the end, when every writer was flushed: all lines of every stream. *)
  Theorem C37_all_lines s (chunks : nat -> list str) : rtc (out_step a ws) (out_start opss) s ->
    (forall i ops, opss !! i = Some ops -> ops = map WWrite (chunks i) ++ [WFlush]) ->
    s_lock s = None -> (forall i x, s_writers s !! i = Some x -> s_todo x = []) ->
    exists log, (forall d, s_dest s d = rendered prefix_of (List.filter (goes_to d) log)) /\
      forall i w, ws !! i = Some w -> exists ls, lines (concat (chunks i)) ls /\ of_writer i log = map (shown a (w_stripped w)) ls.
  Proof.
    intros Hr Hops Hlock Htodo. destruct (out_inv_reach s Hr) as [log (I1 & I2 & _ & I4)]. exists log. split.
    - intros d. specialize (I2 d). unfold outstanding in I2. rewrite Hlock, app_nil_r in I2. exact I2.
    - intros i w Hw. destruct (lookup_lt_is_Some_2 opss i) as [ops Ho]; [rewrite Hlen; eapply lookup_lt_Some; exact Hw|].
      destruct (lookup_lt_is_Some_2 (s_writers s) i) as [x Hx]; [rewrite I1; eapply lookup_lt_Some; exact Hw|].
      destruct (I4 i ops w x Ho Hw Hx) as (done & ls & E1 & E2 & E3). rewrite (Htodo _ _ Hx), app_nil_r in E1. rewrite <- E1, (Hops _ _ Ho) in E2.
      destruct (C36_chunking_does_not_matter (chunks i)) as (ls' & E4 & H). rewrite E4 in E2. injection E2 as <- _. eauto.
  Qed.
End C37.

(** A line that is shown has no newline in it, so the lines can be told apart. *)
Theorem C37_no_newline_inside a raw : nl ∉ shown a false raw.
Proof. intros H. destruct (C38_no_control _ _ _ H) as [[Hh|Hh]|Hh]; [|discriminate Hh|discriminate Hh]. apply Nat.leb_le in Hh. vm_compute in Hh. discriminate Hh. Qed.

(** Two writers, the first interrupted in the middle of a line. *)
Definition plain_lib : ansi_lib := AnsiLib (fun s => [(PText, s)]) id.
Definition two : list writer := [Writer (lit "[a] ") 1 false; Writer (lit "[b] ") 1 false].
Definition two_ops : list (list wop) := [map WWrite [lit "x"; lit "y" ++ [nl] ++ lit "z"] ++ [WFlush]; map WWrite [lit "1" ++ [nl]] ++ [WFlush]].
Fixpoint bytes_out (n : nat) (s : out_state) : out_state :=
  match n with
  | 0 => s
  | S n =>
      match s with
      | OutState (Some i) l d =>
          match two !! i, l !! i with
          | Some w, Some (WState todo p (c :: rest)) => bytes_out n (OutState (Some i) (<[i := WState todo p rest]> l) (fun e => if decide (e = w_to w) then d e ++ [c] else d e))
          | Some _, Some (WState todo p []) => OutState None l d
          | _, _ => s
          end
      | _ => s
      end
  end.
Lemma bytes_out_run n s : rtc (out_step plain_lib two) s (bytes_out n s).
Proof.
  revert s. induction n as [|n IH]; intros [[i|] l d]; simpl; try reflexivity. destruct (two !! i) as [w|] eqn:Ew; [|reflexivity]. destruct (l !! i) as [[todo p [|c rest]]|] eqn:El; [|
    |reflexivity].
  - eapply rtc_l; [|reflexivity]. eapply o_unlock. exact El.
  - eapply rtc_l; [|apply IH]. apply o_byte with (w := w); assumption.
Qed.
Definition call (i : nat) (s : out_state) : out_state :=
  match s with
  | OutState None l d =>
      match two !! i, l !! i with
      | Some w, Some (WState (o :: todo) p []) => let '(ls, p') := wcall p o in OutState (Some i) (<[i := WState todo p' (concat (map (line_bytes plain_lib w) ls))]> l) d
      | _, _ => s
      end
  | _ => s
  end.
Lemma call_run i s : rtc (out_step plain_lib two) s (call i s).
Proof.
  destruct s as [[j|] l d]; [reflexivity|]. simpl. destruct (two !! i) as [w|] eqn:Ew; [|reflexivity]. destruct (l !! i) as [[[|o todo] p [|]]|] eqn:El; try reflexivity.
  destruct (wcall p o) as [ls p'] eqn:Ec. eapply rtc_l; [|reflexivity]. eapply o_lock; eassumption.
Qed.
Fixpoint turns (n : nat) (l : list nat) (s : out_state) : out_state := match l with [] => s | i :: l => turns n l (bytes_out n (call i s)) end.
Lemma turns_run n l s : rtc (out_step plain_lib two) s (turns n l s).
Proof.
  revert s. induction l as [|i l IH]; intros s; [reflexivity|]. cbn [turns]. etransitivity; [|apply IH]. etransitivity; [apply call_run|apply bytes_out_run].
Qed.
Example C37_met : exists s, rtc (out_step plain_lib two) (out_start two_ops) s /\ s_lock s = None /\ Forall (fun x => s_todo x = []) (s_writers s) /\
  s_dest s 1 = lit "[b] 1" ++ [nl] ++ lit "[a] xy" ++ [nl] ++ lit "[a] z" ++ [nl].
Proof. exists (turns 50 [0; 1; 0; 0; 1] (out_start two_ops)). split; [apply turns_run|]. vm_compute. repeat split; repeat constructor. Qed.

(** ** C40 *)
Theorem C40_distinct_keys p q : path_to_key p = path_to_key q -> p = q.
Proof. apply path_to_key_inj. Qed.
(** The items of the outermost block, numbered by the display, have the keys of
    their positions. *)
Theorem C40_same_keys i : item_key i = path_to_key [i].
Proof. reflexivity. Qed.
(** An item's key tells its parent's. *)
Theorem C40_child_keys p i : p <> [] -> path_to_key (p ++ [i]) = path_to_key p ++ lit "." ++ itoa i.
Proof. apply path_to_key_snoc. Qed.
Example C40_met : path_to_key [1; 12] = lit "1.12" /\ path_to_key [11; 2] = lit "11.2" /\ path_to_key [112] = lit "112".
Proof. vm_compute. auto. Qed.

(** ** C42 *)
(** The three channels of a palette colour, 0 to 5 each. *)
Definition cube (c r g b : nat) : Prop := c = 16 + 36 * r + 6 * g + b /\ r <= 5 /\ g <= 5 /\ b <= 5.
Theorem C42_palette path : exists r g b, cube (color_for_path path) r g b.
Proof.
  assert (Hbase : forall i, exists r g b, cube (nth (i mod 8) base_colors 0) r g b).
  { intros i. pose proof (Nat.mod_upper_bound i 8 ltac:(lia)) as H. set (m := i mod 8) in *. clearbody m. unfold cube.
    do 8 (destruct m as [|m]; [simpl; match goal with |- exists r g b, ?v = _ /\ _ => exists ((v - 16) / 36), ((v - 16) mod 36 / 6), ((v - 16) mod 6) end; vm_compute; repeat split; repeat constructor|]). lia. }
  unfold color_for_path. destruct path as [|i rest]; [apply (Hbase 0)|]. change (length base_colors) with 8. destruct (Hbase i) as (r & g & b & Hc & Hr & Hg & Hb). destruct rest as [|j rest]; [unfold cube; eauto 10|].
  set (n := length (j :: rest)). clearbody n. unfold dim_color. destruct ((_ <? 16) || (231 <? _)) eqn:E; [unfold cube; eauto 10|].
  exists (iter_dim n (((nth (i mod 8) base_colors 0) - 16) / 36)), (iter_dim n (((nth (i mod 8) base_colors 0) - 16) mod 36 / 6)), (iter_dim n (((nth (i mod 8) base_colors 0) - 16) mod 6)).
  split; [reflexivity|]. split; [|split]; (etransitivity; [apply iter_dim_le|]).
  - rewrite Hc. assert (Ed : (16 + 36 * r + 6 * g + b - 16) / 36 = r) by (symmetry; apply (Nat.div_unique _ _ _ (6 * g + b)); lia). rewrite Ed. exact Hr.
  - assert (Hm : forall x, x mod 36 / 6 <= 5) by (intros x; pose proof (Nat.mod_upper_bound x 36 ltac:(lia)); apply Nat.lt_succ_r, Nat.div_lt_upper_bound; lia). apply Hm.
  - assert (Hm : forall x, x mod 6 <= 5) by (intros x; pose proof (Nat.mod_upper_bound x 6 ltac:(lia)); lia). apply Hm.
Qed.
(** Dimming by any number of steps brightens no channel. *)
Theorem C42_never_brighter c r g b steps : cube c r g b -> exists r' g' b', cube (dim_color c steps) r' g' b' /\ r' <= r /\ g' <= g /\ b' <= b.
Proof.
  intros (Hc & Hr & Hg & Hb). unfold dim_color. destruct ((c <? 16) || (231 <? c)) eqn:E.
  { exfalso. apply orb_true_iff in E as [E|E]; apply Nat.ltb_lt in E; lia. }
  assert (E1 : (c - 16) / 36 = r) by (symmetry; apply (Nat.div_unique _ _ _ (6 * g + b)); lia).
  assert (E2 : (c - 16) mod 36 = 6 * g + b) by (symmetry; apply (Nat.mod_unique _ _ r); lia).
  assert (E3 : (c - 16) mod 6 = b) by (symmetry; apply (Nat.mod_unique _ _ (6 * r + g)); lia).
  assert (E4 : (6 * g + b) / 6 = g) by (symmetry; apply (Nat.div_unique _ _ _ b); lia).
  rewrite E1, E2, E3, E4. exists (iter_dim steps r), (iter_dim steps g), (iter_dim steps b). pose proof (iter_dim_le steps r). pose proof (iter_dim_le steps g). pose proof (iter_dim_le steps b).
  unfold cube. repeat split; lia.
Qed.
Example C42_met : map color_for_path [[0]; [0; 3]; [9; 1; 1]; [2; 0; 0; 0; 0]] = [212; 132; 22; 16] /\ cube 212 5 2 4.
Proof. vm_compute. repeat split; repeat constructor. Qed.

Print Assumptions C36_chunking_does_not_matter.
Print Assumptions C36_lines_determined.
Print Assumptions C36_nothing_lost.
Print Assumptions C36_lines_are_emitted_at_once.
Print Assumptions C38_no_control.
Print Assumptions C38_no_escape.
Print Assumptions C38_text.
Print Assumptions C38_unchanged.
Print Assumptions C38_sequences_dropped.
Print Assumptions C38_styles_kept.
Print Assumptions C39_crlf_loses_the_line.
Print Assumptions C39_refuted.
Print Assumptions C39_after_last_return_partial.
Print Assumptions C37_whole_lines.
Print Assumptions C37_all_lines.
Print Assumptions C37_no_newline_inside.
Print Assumptions C40_distinct_keys.
Print Assumptions C40_same_keys.
Print Assumptions C40_child_keys.
Print Assumptions C42_palette.
Print Assumptions C42_never_brighter.
