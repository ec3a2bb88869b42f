(** Theorems about what the picker marks and draws: C68. *)
From Verif Require Import Base StrOrder Types_Model Path_Model Cond_Model Utf8_Model Utf8_Spec Utf8_Proof Vars_Proof P_Run Pick_Model Pick_Spec Pick_Proof P_Pick Mark_Model.

(** The text on the screen. *)
Definition plain_text (ps : list piece) : str := concat ps.*2.
(** Characters with their marks, from groups of characters. *)
Definition spread (gs : list (bool * list N)) : list (bool * N) := concat (map (fun g => map (pair g.1) g.2) gs).
(** Neighbours differ, none is empty. *)
Fixpoint maximal (gs : list (bool * list N)) : Prop :=
  match gs with
  | [] => True
  | g :: rest => g.2 <> [] /\ match rest with [] => True | h :: _ => g.1 <> h.1 end /\ maximal rest
  end.
(** Where the character [i] of [l] begins. *)
Definition offset (l : list N) (i : nat) : nat := length (concat (map encode_rune (take i l))).

(** ** The names *)
Fixpoint marks (idx : list nat) (off : nat) (us : list (N * str)) : list (bool * N) :=
  match us with [] => [] | (r, bs) :: us' => (bool_decide (off ∈ idx), r) :: marks idx (off + length bs) us' end.
Lemma of_runes_nil l : of_runes l = [] -> l = [].
Proof. destruct l as [|r l]; [reflexivity|]. unfold of_runes. simpl. intros H. apply app_eq_nil in H as [H _]. exfalso. exact (encode_ne r H). Qed.
Lemma of_runes_app a b : of_runes (a ++ b) = of_runes a ++ of_runes b.
Proof. unfold of_runes. rewrite map_app, concat_app. reflexivity. Qed.

Section Names.
  Context (base hl : look) (idx : list nat).
  Definition as_piece (g : bool * list N) : piece := (if g.1 then hl else base, of_runes g.2).
  Definition finish (x : list piece * str * bool) : list piece :=
    let '(b, run, prev) := x in match run with [] => b | _ => b ++ [(if prev then hl else base, run)] end.
  Lemma loop_groups us : forall off b run0 prev first, (first = true -> run0 = []) -> (first = false -> run0 <> []) ->
    exists gs, finish (highlight_loop base hl idx off us b (of_runes run0) prev first) = b ++ map as_piece gs /\
      spread gs = map (pair prev) run0 ++ marks idx off us /\ maximal gs /\
      match gs with [] => run0 = [] | g :: _ => run0 <> [] -> g.1 = prev end.
  Proof.
    induction us as [|[r bs] us IH]; intros off b run0 prev first Hf1 Hf2.
    - cbn [highlight_loop finish marks]. rewrite app_nil_r. destruct run0 as [|r0 run0].
      + exists []. split; [rewrite app_nil_r; reflexivity|]. split; [reflexivity|]. split; [exact I|reflexivity].
      + exists [(prev, r0 :: run0)]. destruct (of_runes (r0 :: run0)) as [|c s] eqn:E; [apply of_runes_nil in E; discriminate E|]. rewrite <- E. split; [reflexivity|]. split; [unfold spread; simpl; rewrite app_nil_r; reflexivity|]. split; [repeat split; discriminate|intros _; reflexivity].
    - cbn [highlight_loop marks]. set (h := bool_decide (off ∈ idx)). destruct first.
      + rewrite (Hf1 eq_refl). cbn [negb andb]. replace (of_runes [] ++ encode_rune r) with (of_runes [r]) by (unfold of_runes; simpl; rewrite app_nil_r; reflexivity).
        destruct (IH (off + length bs) b [r] h false ltac:(discriminate) ltac:(discriminate)) as (gs & H1 & H2 & H3 & H4). exists gs. split; [exact H1|]. split; [rewrite H2; reflexivity|]. split; [exact H3|]. destruct gs as [|g gs]; [discriminate H4|]. intros H. congruence.
      + specialize (Hf2 eq_refl). cbn [negb andb]. destruct (Bool.eqb h prev) eqn:Eh; cbn [negb].
        * apply Bool.eqb_prop in Eh as ->. replace (of_runes run0 ++ encode_rune r) with (of_runes (run0 ++ [r])) by (rewrite of_runes_app; unfold of_runes; simpl; rewrite app_nil_r; reflexivity).
          destruct (IH (off + length bs) b (run0 ++ [r]) prev false ltac:(discriminate) ltac:(intros _ E; apply app_eq_nil in E as [_ E]; discriminate E)) as (gs & H1 & H2 & H3 & H4). exists gs. split; [exact H1|]. split; [rewrite H2, map_app, <- app_assoc; reflexivity|]. split; [exact H3|].
          destruct gs as [|g gs]; [apply app_eq_nil in H4 as [_ H4]; discriminate H4|]. intros _. apply H4. intros E. apply app_eq_nil in E as [_ E]. discriminate E.
        * replace ([] ++ encode_rune r) with (of_runes [r]) by (unfold of_runes; simpl; rewrite app_nil_r; reflexivity).
          destruct (IH (off + length bs) (b ++ [(if prev then hl else base, of_runes run0)]) [r] h false ltac:(discriminate) ltac:(discriminate)) as (gs & H1 & H2 & H3 & H4). exists ((prev, run0) :: gs). split; [rewrite H1, <- app_assoc; reflexivity|]. split; [unfold spread in *; cbn [map concat fst snd]; rewrite H2; reflexivity|].
          split; [|intros _; reflexivity]. cbn [maximal fst snd]. split; [exact Hf2|]. split; [|exact H3]. destruct gs as [|g gs]; [exact I|]. rewrite (H4 ltac:(discriminate)). intros E. rewrite E, Bool.eqb_reflx in Eh. discriminate Eh.
  Qed.
End Names.

Lemma marks_text idx l : forall off, marks idx off (map (fun r => (r, encode_rune r)) l) = imap (fun i r => (bool_decide (off + offset l i ∈ idx), r)) l.
Proof.
  induction l as [|r l IH]; intros off; [reflexivity|]. cbn [map marks]. rewrite imap_cons. f_equal; [unfold offset; simpl; rewrite Nat.add_0_r; reflexivity|].
  rewrite IH. apply imap_ext. intros i x _. cbn [compose]. unfold offset. cbn [take map concat]. rewrite app_length, Nat.add_assoc. reflexivity.
Qed.

(** A name is shown unchanged, in pieces of marked and of unmarked characters that are
    as long as possible; a character is marked just if its place is among those the
    search reports. *)
Theorem C68_name s l idx base hl : text s l -> idx <> [] ->
  exists gs, highlight s idx base hl = map (fun g : bool * list N => (if g.1 then hl else base, concat (map encode_rune g.2))) gs /\ maximal gs /\
    concat gs.*2 = l /\ forall i b r, spread gs !! i = Some (b, r) -> l !! i = Some r /\ (b = true <-> offset l i ∈ idx).
Proof.
  intros Ht Hidx. unfold highlight. rewrite (runes_text s l Ht). destruct idx as [|i0 idx0]; [contradiction|]. set (idx := i0 :: idx0).
  destruct (loop_groups base hl idx (map (fun r => (r, encode_rune r)) l) 0 [] [] false true ltac:(reflexivity) ltac:(discriminate)) as (gs & H1 & H2 & H3 & _). exists gs. split; [exact H1|]. split; [exact H3|].
  rewrite marks_text in H2. simpl in H2. split.
  - assert (E : (spread gs).*2 = concat gs.*2). { clear. induction gs as [|g gs IH]; [reflexivity|]. unfold spread in *. cbn [map concat]. rewrite fmap_app, IH. cbn [fmap list_fmap concat]. f_equal. induction g.2 as [|x xs IHx]; [reflexivity|]. cbn. f_equal. exact IHx. }
    rewrite <- E, H2. apply list_eq. intros i. rewrite list_lookup_fmap, list_lookup_imap. destruct (l !! i); reflexivity.
  - intros i b r Hi. rewrite H2, list_lookup_imap in Hi. destruct (l !! i) as [r'|]; [|discriminate Hi]. simpl in Hi. injection Hi as <- <-. split; [reflexivity|]. apply bool_decide_eq_true.
Qed.
Theorem C68_name_kept s l idx base hl : text s l -> plain_text (highlight s idx base hl) = s.
Proof.
  intros Ht. destruct idx as [|i idx]; [unfold plain_text; simpl; apply app_nil_r|]. destruct (C68_name s l (i :: idx) base hl Ht ltac:(discriminate)) as (gs & -> & _ & Hl & _). destruct Ht as [_ ->]. rewrite <- Hl. clear. unfold plain_text.
  induction gs as [|g gs IH]; [reflexivity|]. cbn [map fmap list_fmap concat snd]. rewrite IH, map_app, concat_app. reflexivity.
Qed.
(** Bytes that are no text are replaced. *)
Theorem C68_name_refuted : exists s idx, plain_text (highlight s idx LName LHit) <> s.
Proof. exists [ascii_of_nat 255], [0]. vm_compute. discriminate. Qed.

(** ** The aliases *)
Lemma str_index_some s sub i : str_index s sub = Some i -> s = take i s ++ sub ++ drop (i + length sub) s /\ i <= length s /\ forall pre post, s = pre ++ sub ++ post -> i <= length pre.
Proof.
  revert i. induction s as [|c s IH]; intros i H; cbn [str_index] in H.
  - destruct (has_prefix sub []) eqn:E; [|discriminate H]. injection H as <-. apply has_prefix_true in E as [r E]. symmetry in E. apply app_eq_nil in E as [-> ->]. repeat split; simpl; lia.
  - destruct (has_prefix sub (c :: s)) eqn:E.
    + injection H as <-. apply has_prefix_true in E as [r E]. cbn [take app Nat.add]. rewrite E. split; [rewrite drop_app; reflexivity|]. split; [lia|]. intros. lia.
    + apply fmap_Some in H as (j & Hj & ->). destruct (IH j Hj) as (H1 & H2 & H3). cbn [take app Nat.add drop]. split; [f_equal; exact H1|]. split; [simpl; lia|]. intros [|d pre] post Ep.
      * exfalso. rewrite has_prefix_false in E. exact (E post Ep).
      * injection Ep as _ Ep. apply H3 in Ep. simpl. lia.
Qed.
Lemma str_index_occurs pre sub post : is_Some (str_index (pre ++ sub ++ post) sub).
Proof.
  induction pre as [|c pre IH].
  - simpl. assert (E : has_prefix sub (sub ++ post) = true) by (apply has_prefix_true; eauto). destruct (sub ++ post); cbn [str_index]; rewrite E; eauto.
  - cbn [app str_index]. destruct (has_prefix _ _); [eauto|]. destruct IH as [i ->]. simpl. eauto.
Qed.
Lemma alias_start text matched all i : matched ∈ all -> str_index text matched = Some i ->
  head (omap (fun a => if decide (a = matched) then str_index text a else None) all) = Some i.
Proof.
  intros Hin Hi. induction all as [|a all IH]; [apply elem_of_nil in Hin as []|]. cbn [omap list_omap]. destruct (decide (a = matched)) as [->|Hne]; [rewrite Hi; reflexivity|].
  apply elem_of_cons in Hin as [->|Hin]; [congruence|]. auto.
Qed.
Lemma alias_start_inv text matched all i : head (omap (fun a => if decide (a = matched) then str_index text a else None) all) = Some i -> str_index text matched = Some i.
Proof.
  induction all as [|a all IH]; [discriminate|]. cbn [omap list_omap]. destruct (decide (a = matched)) as [->|]; [|exact IH]. destruct (str_index text matched) eqn:E; [simpl; congruence|exact IH].
Qed.
Lemma highlight_alias_shape text matched all i : str_index text matched = Some i -> matched ∈ all -> 
  highlight_alias text matched all = (if 0 <? i then [(LAlias, take i text)] else []) ++ [(LAliasHit, matched)] ++ (if i + length matched <? length text then [(LAlias, drop (i + length matched) text)] else []).
Proof.
  intros Hi Hin. unfold highlight_alias. rewrite (alias_start _ _ _ _ Hin Hi). destruct (str_index_some _ _ _ Hi) as (E & Hl & _). do 3 f_equal. f_equal.
  assert (E2 : drop i text = matched ++ drop (i + length matched) text). { apply (app_inv_head (take i text)). rewrite take_drop. exact E. }
  rewrite E2. apply take_app.
Qed.

(** The aliases are shown unchanged. *)
Theorem C68_aliases_kept text matched all : plain_text (highlight_alias text matched all) = text.
Proof.
  destruct (head (omap (fun a => if decide (a = matched) then str_index text a else None) all)) as [i|] eqn:E.
  - pose proof (alias_start_inv _ _ _ _ E) as Hi. unfold highlight_alias. rewrite E. destruct (str_index_some _ _ _ Hi) as (Es & Hl & _). unfold plain_text. rewrite !fmap_app, !concat_app.
    replace (concat (if 0 <? i then [(LAlias, take i text)] else []).*2) with (take i text) by (destruct (Nat.ltb_spec 0 i); simpl; [rewrite app_nil_r; reflexivity|replace i with 0 by lia; reflexivity]).
    replace (concat (if i + length matched <? length text then [(LAlias, drop (i + length matched) text)] else []).*2) with (drop (i + length matched) text)
      by (destruct (Nat.ltb_spec (i + length matched) (length text)); simpl; [rewrite app_nil_r; reflexivity|rewrite drop_ge by lia; reflexivity]).
    cbn [fmap list_fmap concat snd]. rewrite app_nil_r. rewrite <- drop_drop. rewrite take_drop. apply take_drop.
  - unfold highlight_alias. rewrite E. unfold plain_text. simpl. apply app_nil_r.
Qed.
(** A piece is marked that reads like the alias found. *)
Theorem C68_alias_marked matched aliases : matched ∈ aliases ->
  List.filter (fun p : piece => match p.1 with LAliasHit => true | _ => false end) (highlight_alias (alias_text aliases) matched aliases) = [(LAliasHit, matched)].
Proof.
  intros Hin. assert (Hocc : exists pre post, alias_text aliases = pre ++ matched ++ post).
  { unfold alias_text. apply elem_of_list_split in Hin as (l1 & l2 & ->). assert (Hj : exists pre post, join_with (lit ", ") (l1 ++ matched :: l2) = pre ++ matched ++ post).
    { induction l1 as [|a l1 IH]; [cbn [app join_with]; destruct l2 as [|b l2]; [exists [], []; rewrite app_nil_r; reflexivity|exists [], (lit ", " ++ join_with (lit ", ") (b :: l2)); reflexivity]|].
      destruct IH as (pre & post & IH). exists (a ++ lit ", " ++ pre), post. cbn [app]. cbn [join_with]. destruct (l1 ++ matched :: l2) eqn:E; [destruct l1; discriminate E|]. rewrite IH, <- !app_assoc. reflexivity. }
    destruct Hj as (pre & post & ->). exists (lit " (" ++ pre), (post ++ lit ")"). rewrite <- !app_assoc. reflexivity. }
  destruct Hocc as (pre & post & E). destruct (str_index_occurs pre matched post) as [i Hi]. rewrite <- E in Hi. rewrite (highlight_alias_shape _ _ _ _ Hi Hin). rewrite !List.filter_app.
  destruct (0 <? i); destruct (i + length matched <? length (alias_text aliases)); reflexivity.
Qed.

(** It is the alias found, if that has none of the signs between aliases and does not
    occur inside an alias that is listed before it. *)
Definition occurs (sub s : str) : Prop := exists pre post, s = pre ++ sub ++ post.
Lemma occurs_across (x : str) c y pre m post : x ++ [c] ++ y = pre ++ m ++ post -> c ∉ m -> m <> [] -> occurs m x \/ exists pre', pre = x ++ [c] ++ pre' /\ y = pre' ++ m ++ post.
Proof.
  intros E Hc Hm. revert pre E. induction x as [|d x IH]; intros pre E.
  - right. destruct pre as [|p pre].
    + destruct m as [|m0 m]; [congruence|]. simpl in E. injection E as -> _. exfalso. apply Hc. left.
    + simpl in E. injection E as -> E. exists pre. split; [reflexivity|exact E].
  - destruct pre as [|p pre].
    + destruct (decide (length m <= length (d :: x))) as [Hle|Hgt].
      * left. exists [], (drop (length m) (d :: x)). assert (Em : m = take (length m) (d :: x)).
        { assert (E' : take (length m) ((d :: x) ++ [c] ++ y) = take (length m) ([] ++ m ++ post)) by (rewrite E; reflexivity). rewrite take_app_le in E' by exact Hle. simpl ([] ++ _) in E'. rewrite take_app in E'. symmetry. exact E'. }
        simpl ([] ++ _). rewrite Em at 1. symmetry. apply take_drop.
      * exfalso. apply Hc. assert (Hl : ([] ++ m ++ post) !! length (d :: x) = Some c) by (rewrite <- E; rewrite lookup_app_r by lia; rewrite Nat.sub_diag; reflexivity). simpl ([] ++ _) in Hl. rewrite lookup_app_l in Hl by lia. eapply elem_of_list_lookup_2. exact Hl.
    + simpl in E. injection E as -> E. destruct (IH pre E) as [(a & b & ->)|(pre' & -> & Hy)]; [left; exists (p :: a), b; reflexivity|right]. exists pre'. split; [reflexivity|exact Hy].
Qed.
Lemma occurs_later m l1 rest pre post : m <> [] -> ","%char ∉ m -> " "%char ∉ m -> Forall (fun a => ~ occurs m a) l1 ->
  concat (map (fun a => a ++ lit ", ") l1) ++ rest = pre ++ m ++ post -> length (concat (map (fun a => a ++ lit ", ") l1)) <= length pre.
Proof.
  intros Hm Hc Hs Hl. revert pre. induction Hl as [|a l1 Ha Hl IH]; intros pre E; [simpl; lia|]. cbn [map concat] in *. rewrite <- !app_assoc in E.
  change (lit ", " ++ ?z) with ([","%char] ++ [] ++ [" "%char] ++ z) in E. destruct (occurs_across _ _ _ _ _ _ E Hc Hm) as [H|(pre' & -> & E')]; [contradiction|].
  destruct (occurs_across _ _ _ _ _ _ E' Hs Hm) as [(u & w & H)|(pre'' & -> & E'')]; [exfalso; symmetry in H; apply app_eq_nil in H as [_ H]; apply app_eq_nil in H as [H _]; contradiction|].
  apply IH in E''. rewrite !app_length in *. simpl in *. lia.
Qed.
Lemma join_before l1 (m : str) l2 : join_with (lit ", ") (l1 ++ m :: l2) = concat (map (fun a => a ++ lit ", ") l1) ++ join_with (lit ", ") (m :: l2).
Proof.
  induction l1 as [|a l1 IH]; [reflexivity|]. cbn [app map concat]. cbn [join_with]. destruct (l1 ++ m :: l2) eqn:E; [destruct l1; discriminate E|]. rewrite IH, <- !app_assoc. reflexivity.
Qed.
Theorem C68_right_alias l1 m l2 : m <> [] -> ","%char ∉ m -> " "%char ∉ m -> "("%char ∉ m -> Forall (fun a => ~ occurs m a) l1 ->
  exists rest, highlight_alias (alias_text (l1 ++ m :: l2)) m (l1 ++ m :: l2) = [(LAlias, lit " (" ++ concat (map (fun a => a ++ lit ", ") l1)); (LAliasHit, m); (LAlias, rest)].
Proof.
  intros Hm Hc Hs Hp Hl. set (pre0 := lit " (" ++ concat (map (fun a => a ++ lit ", ") l1)).
  assert (Hrest : exists r, r <> [] /\ alias_text (l1 ++ m :: l2) = pre0 ++ m ++ r).
  { unfold alias_text. rewrite join_before. subst pre0. destruct l2 as [|b l2]; cbn [join_with]; eexists; (split; [|rewrite <- !app_assoc; reflexivity]); discriminate. }
  destruct Hrest as (r & Hr & E). destruct (str_index_occurs pre0 m r) as [i Hi]. rewrite <- E in Hi.
  assert (Hin : m ∈ l1 ++ m :: l2) by (apply elem_of_app; right; left). rewrite (highlight_alias_shape _ _ _ _ Hi Hin). destruct (str_index_some _ _ _ Hi) as (Es & _ & Hfirst).
  assert (Ei : i = length pre0).
  { apply Nat.le_antisymm; [apply (Hfirst pre0 r E)|]. rewrite E in Es at 1.
    assert (Hlen : i <= length (alias_text (l1 ++ m :: l2))) by apply (str_index_some _ _ _ Hi). assert (Hti : length (take i (alias_text (l1 ++ m :: l2))) = i) by (rewrite take_length; lia).
    set (p := take i (alias_text (l1 ++ m :: l2))) in *. rewrite <- Hti. clearbody p. subst pre0. rewrite <- app_assoc in Es. change (lit " (" ++ ?z) with ([] ++ [" "%char] ++ [] ++ ["("%char] ++ z) in Es.
    destruct (occurs_across _ _ _ _ _ _ Es Hs Hm) as [(u & w & H)|(p1 & -> & E1)]; [exfalso; symmetry in H; apply app_eq_nil in H as [_ H]; apply app_eq_nil in H as [H _]; contradiction|].
    destruct (occurs_across _ _ _ _ _ _ E1 Hp Hm) as [(u & w & H)|(p2 & -> & E2)]; [exfalso; symmetry in H; apply app_eq_nil in H as [_ H]; apply app_eq_nil in H as [H _]; contradiction|].
    apply occurs_later in E2; [|assumption..]. rewrite !app_length in *. simpl in *. lia. }
  rewrite Ei, E. rewrite take_app. rewrite <- app_length, (app_assoc pre0 m r), drop_app. destruct (Nat.ltb_spec 0 (length pre0)) as [_|H]; [|subst pre0; simpl in H; lia].
  destruct (Nat.ltb_spec (length (pre0 ++ m)) (length ((pre0 ++ m) ++ r))) as [_|H]; [|rewrite (app_length (pre0 ++ m)) in H; destruct r; [congruence|simpl in H; lia]]. exists r. reflexivity.
Qed.
(** Otherwise another alias may be marked. *)
Theorem C68_alias_refuted : exists aliases m, m ∈ aliases /\ NoDup aliases /\
  highlight_alias (alias_text aliases) m aliases = [(LAlias, lit " (a"); (LAliasHit, m); (LAlias, lit ", b)")].
Proof. exists [lit "ab"; lit "b"], (lit "b"). split; [apply (bool_decide_eq_true_1 _); reflexivity|]. split; [apply (bool_decide_eq_true_1 _); reflexivity|reflexivity]. Qed.
(** The alias a search reports is one of the task. *)
Theorem C68_alias_of_the_task f q tasks m : m ∈ search f q tasks -> m_alias m = [] \/ m_alias m ∈ get_all_aliases (m_task m).
Proof.
  intros H. destruct (decide (q = [])) as [->|Hq].
  - simpl in H. apply elem_of_list_In, in_map_iff in H as (t & <- & _). left. reflexivity.
  - rewrite search_perm in H by exact Hq. unfold unsorted in H. apply elem_of_app in H as [H|H]; apply elem_of_list_omap in H as (o & Ho & E); cbn in E; subst o; apply elem_of_lookup_imap in Ho as (i & t & E & _); symmetry in E.
    + unfold by_alias in E. destruct (search_aliases f q t) as [[a idx] ex] eqn:Es. destruct a as [|c a]; [discriminate E|]. injection E as <-. cbn [m_alias m_task]. right. unfold search_aliases in Es. destruct (get_all_aliases t) as [|a0 al]; [discriminate Es|].
      destruct (decide (q ∈ a0 :: al)) as [Hin|_]; [injection Es as <- _ _; exact Hin|]. destruct (fz_find f q (a0 :: al)) as [|[[j ix] sc] rest]; [discriminate Es|]. injection Es as Es _ _.
      destruct (nth_in_or_default j (a0 :: al) []) as [Hn|Hn]; [rewrite <- Es; apply elem_of_list_In; exact Hn|cbn [nth] in *; rewrite Hn in Es; discriminate Es].
    + unfold by_name in E. destruct (by_alias f q _ i t); [discriminate E|]. destruct (_ !! i) as [[ix sc]|]; [|discriminate E]. injection E as <-. left. reflexivity.
Qed.

(** ** The lines *)
Definition sound_name (m : pmatch) : Prop := m_name_idx m = [] \/ exists l, text (t_name (m_task m)) l.
(** Without colours a line is the name, the aliases in brackets and the description. *)
Theorem C68_line m sel : sound_name m ->
  plain_text (draw_line m sel) = (if sel then lit "│ " else lit "  ") ++ t_name (m_task m) ++
    match get_all_aliases (m_task m) with [] => [] | l => lit " (" ++ join_with (lit ", ") l ++ lit ")" end ++
    match t_desc (m_task m) with [] => [] | d => lit "  " ++ d end.
Proof.
  intros Hn. unfold draw_line, plain_text. rewrite !fmap_app, !concat_app. f_equal; [destruct sel; reflexivity|]. f_equal.
  - destruct Hn as [->|[l Hl]]; [simpl; apply app_nil_r|]. apply (C68_name_kept _ _ _ _ _ Hl).
  - f_equal.
    + destruct (get_all_aliases (m_task m)) as [|a al]; [reflexivity|]. destruct (m_alias m) as [|c s]; [simpl; rewrite app_nil_r; reflexivity|]. apply C68_aliases_kept.
    + destruct (t_desc (m_task m)); simpl; [reflexivity|rewrite app_nil_r; reflexivity].
Qed.
(** The line with the cursor is the line of the task that Enter takes, and no other
    line has it. *)
Definition has_cursor (ps : list piece) : bool := existsb (fun p : piece => match p.1 with LCursor => true | _ => false end) ps.
Lemma highlight_looks s idx base hl : Forall (fun p : piece => p.1 = base \/ p.1 = hl) (highlight s idx base hl).
Proof.
  unfold highlight. destruct idx as [|i0 idx0]; [repeat constructor|]. set (idx := i0 :: idx0).
  assert (H : forall us off b run prev first, Forall (fun p : piece => p.1 = base \/ p.1 = hl) b -> Forall (fun p : piece => p.1 = base \/ p.1 = hl) (highlight_loop base hl idx off us b run prev first).1.1).
  { induction us as [|[r bs] us IH]; intros off b run prev first Hb; [exact Hb|]. cbn [highlight_loop]. destruct (negb first && negb _); [|apply IH; exact Hb]. apply IH. apply Forall_app. split; [exact Hb|]. constructor; [destruct prev; simpl; auto|constructor]. }
  specialize (H (units s) 0 [] [] false true (Forall_nil_2 _)). destruct (highlight_loop _ _ _ _ _ _ _ _ _) as [[b run] prev]. destruct run; [exact H|]. apply Forall_app. split; [exact H|]. constructor; [destruct prev; simpl; auto|constructor].
Qed.
Lemma line_cursor m sel : has_cursor (draw_line m sel) = sel.
Proof.
  unfold has_cursor, draw_line. rewrite !existsb_app.
  assert (H1 : existsb (fun p : piece => match p.1 with LCursor => true | _ => false end) (highlight (t_name (m_task m)) (m_name_idx m) (if sel then LSelected else LName) LHit) = false).
  { destruct (existsb _ _) eqn:E; [|reflexivity]. apply existsb_exists in E as (p & Hp & E). apply elem_of_list_In in Hp. pose proof (highlight_looks (t_name (m_task m)) (m_name_idx m) (if sel then LSelected else LName) LHit) as H. rewrite Forall_forall in H. destruct (H _ Hp) as [H'|H']; rewrite H' in E; [destruct sel|]; discriminate E. }
  rewrite H1. destruct (get_all_aliases (m_task m)) as [|a0 al]; [destruct sel, (t_desc (m_task m)); reflexivity|]. destruct (m_alias m) as [|c s]; [destruct sel, (t_desc (m_task m)); reflexivity|].
  assert (H2 : forall tx a l, existsb (fun p : piece => match p.1 with LCursor => true | _ => false end) (highlight_alias tx a l) = false).
  { intros tx a l. unfold highlight_alias. destruct (head _); [|reflexivity]. rewrite !existsb_app. destruct (0 <? _); destruct (_ <? length _); reflexivity. }
  cbv zeta. rewrite H2. destruct sel, (t_desc (m_task m)); reflexivity.
Qed.
Theorem C68_one_cursor f tasks order es : forallb (fun e => negb (ends e)) es = true ->
  let k := pick_all f (new_picker f tasks order) es in k_matches k <> [] ->
  exists i m, draw_list k !! i = Some (draw_line m true) /\ k_selected (pick_all f (new_picker f tasks order) (es ++ [KEnter])) = Some (m_task m) /\
    forall j ps, draw_list k !! j = Some ps -> (has_cursor ps = true <-> j = i).
Proof.
  intros He k Hne. destruct (C43_cursor_is_drawn f tasks order es Hne) as (x & Hx & Hd). fold k in Hx, Hd. destruct (C43_stays_open f tasks order es He) as [Hq _]. fold k in Hq.
  destruct (pick_reach f tasks order es) as (I1 & I2 & I3 & I4 & I5). fold k in I1, I2, I3, I4, I5.
  assert (Edl : draw_list k = imap (fun j m => draw_line m (bool_decide (Z.of_nat j + k_offset k = k_cursor k)%Z)) (drawn k)) by (unfold draw_list; rewrite Hq; destruct (k_matches k); [congruence|reflexivity]).
  assert (1 <= length (k_matches k)) by (destruct (k_matches k); [congruence|simpl; lia]).
  assert (Hle : (k_offset k <= k_cursor k)%Z) by lia.
  exists (Z.to_nat (k_cursor k - k_offset k)), x. split; [|split].
  - rewrite Edl, list_lookup_imap, Hd. simpl. rewrite bool_decide_eq_true_2 by lia. reflexivity.
  - rewrite (proj1 (C43_enter_selects_the_task_under_the_cursor_partial f tasks order es He)). fold k. rewrite Hx. reflexivity.
  - intros j ps Hj. rewrite Edl, list_lookup_imap in Hj. apply fmap_Some in Hj as (m & Hm & ->). rewrite line_cursor, bool_decide_eq_true. split; lia.
Qed.

(** If nothing was found the list is one line that says so and has no cursor; Enter
    then closes the picker without a task. After the end nothing is drawn. *)
Theorem C68_nothing_found f tasks order es : forallb (fun e => negb (ends e)) es = true ->
  let k := pick_all f (new_picker f tasks order) es in k_matches k = [] ->
  map plain_text (draw_list k) = [lit "  No matching tasks :("] /\ map has_cursor (draw_list k) = [false] /\
  k_selected (pick_all f (new_picker f tasks order) (es ++ [KEnter])) = None.
Proof.
  intros He k Hn. destruct (C43_stays_open f tasks order es He) as [Hq _]. fold k in Hq. unfold draw_list. rewrite Hq, Hn. split; [reflexivity|]. split; [reflexivity|].
  rewrite (proj1 (C43_enter_selects_the_task_under_the_cursor_partial f tasks order es He)). fold k. rewrite Hn. reflexivity.
Qed.
Theorem C68_after_the_end f tasks order es e : forallb (fun e => negb (ends e)) es = true -> ends e = true ->
  draw_list (pick_all f (new_picker f tasks order) (es ++ [e])) = [].
Proof.
  intros He E. unfold draw_list. destruct e; try discriminate E.
  - rewrite (proj2 (C43_cancel_selects_nothing_partial f tasks order es He)). reflexivity.
  - rewrite (proj2 (C43_enter_selects_the_task_under_the_cursor_partial f tasks order es He)). reflexivity.
Qed.
Example C68_nothing_found_met : let k := pick_all same_text (new_picker same_text three three_order) [KType (lit "none"); KDown] in k_matches k = [].
Proof. vm_compute. reflexivity. Qed.

(** A name with a character of two bytes between marked ones. *)
Example C68_name_met : text (bytes [98; 195; 188; 99]) [98; 252; 99]%N /\
  highlight (bytes [98; 195; 188; 99]) [0; 1] LName LHit = [(LHit, bytes [98; 195; 188]); (LName, lit "c")].
Proof. split; [split; [repeat constructor; unfold scalar; lia|reflexivity]|reflexivity]. Qed.
Example C68_right_alias_met : Forall (fun a => ~ occurs (lit "b") a) [lit "x"; lit "a a"] /\
  highlight_alias (alias_text (map lit ["x"; "a a"; "b"; "ab"]%string)) (lit "b") (map lit ["x"; "a a"; "b"; "ab"]%string) = [(LAlias, lit " (x, a a, "); (LAliasHit, lit "b"); (LAlias, lit ", ab)")].
Proof.
  split; [|reflexivity]. repeat constructor; intros (pre & post & E); assert (H : "b"%char ∈ pre ++ lit "b" ++ post) by (apply elem_of_app; right; left); rewrite <- E in H; pose proof (bool_decide_eq_true_2 _ H) as Hb; vm_compute in Hb; discriminate Hb.
Qed.
(** The picker of [three] after typing "test" and going one down. *)
Example C68_one_cursor_met : let k := pick_all same_text (new_picker same_text three three_order) [KType (lit "test"); KDown] in
  map plain_text (draw_list k) = [lit "  t2 (test)"; cursor_sign ++ lit "test (t)"] /\ map has_cursor (draw_list k) = [false; true].
Proof. vm_compute. auto. Qed.

Print Assumptions C68_name.
Print Assumptions C68_name_kept.
Print Assumptions C68_name_refuted.
Print Assumptions C68_aliases_kept.
Print Assumptions C68_alias_marked.
Print Assumptions C68_right_alias.
Print Assumptions C68_alias_refuted.
Print Assumptions C68_alias_of_the_task.
Print Assumptions C68_line.
Print Assumptions C68_one_cursor.
Print Assumptions C68_nothing_found.
Print Assumptions C68_after_the_end.
