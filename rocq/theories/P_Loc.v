(** Theorems about the places errors name: C69; about the lines of YAML errors: C71. *)
From Verif Require Import Base Types_Model Path_Model Path_Proof Cond_Model Out_Model Out_Proof Doc_Model Doc_Spec Doc_Item Loc_Model.

(** ** C69 *)
Lemma elements_spelled pl : Forall proper pl -> elements (spelled pl) = rev pl.
Proof.
  intros H. unfold spelled, elements. destruct pl as [|w pl]; [reflexivity|]. set (l := rev (w :: pl)). assert (Hl : l <> []) by (subst l; simpl; intros E; apply app_eq_nil in E as [_ E]; discriminate E).
  assert (Hp : Forall proper l) by (apply Forall_rev; exact H). assert (Hs : split_on slash (join_with [slash] l) = l) by (apply split_join; [eapply Forall_impl; [exact Hp|]; intros x Hx; apply Hx|exact Hl]).
  destruct (join_with [slash] l) eqn:E; [|exact Hs]. exfalso. destruct l as [|x l']; [contradiction|]. apply Forall_cons in Hp as [(Hx & _) _]. simpl in E. destruct l'; [contradiction|]. apply app_eq_nil in E as [E _]. contradiction.
Qed.
Lemma apart_from_spec b t up down : apart_from b t = (up, down) -> exists c, b = c ++ up /\ t = c ++ down /\ match up, down with x :: _, y :: _ => x <> y | _, _ => True end.
Proof.
  revert t. induction b as [|x b IH]; intros t H; [destruct t; injection H as <- <-; exists []; auto|]. destruct t as [|y t]; [injection H as <- <-; exists []; auto|]. cbn [apart_from] in H. destruct (decide (x = y)) as [->|Hne].
  - destruct (IH _ H) as (c & -> & -> & Hd). exists (y :: c). auto.
  - injection H as <- <-. exists []. auto.
Qed.
Lemma walk_list cur l : Forall (fun w => slash ∉ w) l -> l <> [] -> walk cur (join_with [slash] l) = fold_left walk_step l cur.
Proof. intros H Hl. unfold walk. rewrite split_join by assumption. reflexivity. Qed.
Lemma walk_up cur (up : list str) : fold_left walk_step (map (fun _ => lit "..") up) cur = drop (length up) cur.
Proof.
  revert cur. induction up as [|u up IH]; intros cur; [reflexivity|]. cbn [map fold_left length]. rewrite IH. unfold walk_step. rewrite decide_False by (intros [E|E]; discriminate E). rewrite decide_True by reflexivity. destruct cur; simpl; [destruct (length up); reflexivity|reflexivity].
Qed.
Lemma join_rel (l : list str) : Forall (fun w : str => w <> [] /\ slash ∉ w) l -> is_abs (join_with [slash] l) = false.
Proof.
  intros H. destruct l as [|w ws]; [reflexivity|]. apply Forall_cons in H as [[Hw1 Hw2] _]. destruct w as [|ch w]; [contradiction|]. assert (Hcs : ch <> slash) by (intros ->; apply Hw2; left).
  destruct ws; simpl; apply bool_decide_eq_false_2; exact Hcs.
Qed.
Lemma clean_rel p : is_abs p = false -> is_abs (clean p) = false.
Proof.
  intros Hp. unfold clean. rewrite Hp. assert (Hel : Forall (fun w => w <> [] /\ slash ∉ w) (clean_elems false (split_on slash p))).
  { unfold clean_elems. apply Forall_rev. assert (G : forall l acc, Forall (fun w => slash ∉ w) l -> Forall (fun w : str => w <> [] /\ slash ∉ w) acc -> Forall (fun w : str => w <> [] /\ slash ∉ w) (fold_left (clean_step false) l acc)).
    { induction l as [|w l IH]; intros acc Hl Hacc; [exact Hacc|]. apply Forall_cons in Hl as [Hw Hl]. cbn [fold_left]. apply IH; [exact Hl|]. unfold clean_step. destruct (decide (w = [] \/ w = lit ".")) as [|Hn]; [exact Hacc|]. destruct (decide (w = lit "..")) as [->|].
      - destruct acc as [|top rest]; [repeat constructor; (discriminate || exact Hw)|]. apply Forall_cons in Hacc as [Ht Hr]. destruct (decide (top = lit "..")); [constructor; [split; [discriminate|exact Hw]|constructor; assumption]|exact Hr].
      - constructor; [split; [tauto|exact Hw]|exact Hacc]. }
    apply G; [|constructor]. apply Forall_forall. intros w Hw. eapply split_no_slash. exact Hw. }
  destruct (clean_elems false (split_on slash p)) as [|w ws]; [reflexivity|]. apply join_rel in Hel. destruct (join_with [slash] (w :: ws)); [reflexivity|exact Hel].
Qed.
Lemma rel_place cwd p r : is_abs cwd = true -> rel cwd p = Some r -> is_abs p = true /\ is_abs r = false /\ walk (place_of cwd) r = place_of p.
Proof.
  intros Hc H. unfold rel in H. destruct (decide (clean cwd = clean p)) as [E|Hne].
  - injection H as <-. assert (Ha : is_abs (clean p) = true) by (rewrite <- E; apply clean_abs; exact Hc).
    assert (Hp : is_abs p = true) by (destruct (is_abs p) eqn:Ep; [reflexivity|]; rewrite (clean_rel p Ep) in Ha; discriminate Ha).
    split; [exact Hp|]. split; [reflexivity|]. rewrite (clean_place cwd Hc), (clean_place p Hp) in E. apply spelled_inj in E; [|apply place_proper|apply place_proper]. rewrite <- E. reflexivity.
  - destruct (is_abs (clean p)) eqn:Hcp; [|discriminate H]. cbn [negb] in H. destruct (is_abs p) eqn:Hp.
    2:{ rewrite (clean_rel p Hp) in Hcp. discriminate Hcp. }
    rewrite (clean_place cwd Hc), (clean_place p Hp), !elements_spelled in H by apply place_proper. destruct (apart_from _ _) as [up down] eqn:Ea. injection H as <-.
    destruct (apart_from_spec _ _ _ _ Ea) as (c & Eb & Et & _). rewrite (clean_place cwd Hc), (clean_place p Hp) in Hne.
    pose proof (place_proper cwd) as Hpc. pose proof (place_proper p) as Hpp. apply Forall_rev in Hpc, Hpp. rewrite Eb in Hpc. rewrite Et in Hpp. apply Forall_app in Hpc as [_ Hup], Hpp as [_ Hdown].
    set (l := map (fun _ => lit "..") up ++ down). assert (Hl : l <> []). { subst l. intros E. apply app_eq_nil in E as [E1 E2]. apply map_eq_nil in E1. subst up down. rewrite app_nil_r in Eb, Et. apply Hne. f_equal. rewrite <- (rev_involutive (place_of cwd)), <- (rev_involutive (place_of p)), Eb, Et. reflexivity. }
    assert (Hns : Forall (fun w : str => w <> [] /\ slash ∉ w) l). { subst l. apply Forall_app. split; [apply Forall_forall; intros w Hw; apply elem_of_list_In, in_map_iff in Hw as (? & <- & _); split; [discriminate|]; intros Hx; pose proof (bool_decide_eq_true_2 _ Hx) as Hb; vm_compute in Hb; discriminate Hb|]. eapply Forall_impl; [exact Hdown|]. intros w (H1 & _ & _ & H2). auto. }
    split; [reflexivity|]. split.
    + apply join_rel; exact Hns.
    + rewrite walk_list; [|eapply Forall_impl; [exact Hns|]; intros w [_ Hw]; exact Hw|exact Hl]. subst l. rewrite fold_left_app, walk_up.
      assert (Ecwd : place_of cwd = rev up ++ rev c) by (rewrite <- rev_app_distr, <- Eb, rev_involutive; reflexivity). rewrite Ecwd. replace (length up) with (length (rev up)) by apply rev_length. rewrite drop_app.
      rewrite walk_names by exact Hdown. rewrite <- rev_app_distr, <- Et. apply rev_involutive.
Qed.

(** The path an error prints leads, from the current directory, to the file it is about. *)
Theorem C69_same_file cwd p : is_abs cwd = true -> place_from cwd (relative_path (Some cwd) p) = place_from cwd p.
Proof.
  intros Hc. unfold relative_path. destruct (rel cwd p) as [r|] eqn:E; [|reflexivity]. destruct (has_prefix (lit "..") r); [reflexivity|]. destruct (rel_place cwd p r Hc E) as (H1 & H2 & H3). unfold place_from. rewrite H1, H2. exact H3.
Qed.
(** For a file below the current directory it is the names on the way down, unless
    the first begins with two dots. *)
Theorem C69_short cwd p ns : is_abs cwd = true -> is_abs p = true -> ns <> [] -> place_of p = rev ns ++ place_of cwd ->
  has_prefix (lit "..") (hd [] ns) = false -> relative_path (Some cwd) p = join_with [slash] ns.
Proof.
  intros Hc Hp Hns E Hd. unfold relative_path, rel. rewrite (clean_place cwd Hc), (clean_place p Hp). destruct (decide _) as [Es|_].
  - exfalso. apply spelled_inj in Es; [|apply place_proper|apply place_proper]. rewrite Es in E. apply (f_equal length) in E. rewrite app_length, rev_length in E. destruct ns; [congruence|simpl in E; lia].
  - change (is_abs (spelled (place_of p))) with true. cbn [negb]. rewrite !elements_spelled by apply place_proper. rewrite E, rev_app_distr, rev_involutive.
    assert (Ea : apart_from (rev (place_of cwd)) (rev (place_of cwd) ++ ns) = ([], ns)). { generalize (rev (place_of cwd)). intros l. induction l as [|x l IH]; [destruct ns; reflexivity|]. cbn [app apart_from]. rewrite decide_True by reflexivity. exact IH. }
    rewrite Ea. cbn [map app]. assert (Hj : has_prefix (lit "..") (join_with [slash] ns) = false).
    { destruct ns as [|n ns]; [congruence|]. simpl in Hd. apply has_prefix_false. intros r Er. rewrite has_prefix_false in Hd.
      destruct n as [|a [|b n]].
      - pose proof (place_proper p) as Hpp. rewrite E in Hpp. apply Forall_app in Hpp as [Hpp _]. apply Forall_rev in Hpp. rewrite rev_involutive in Hpp. apply Forall_cons in Hpp as [(Hx & _) _]. contradiction.
      - destruct ns; simpl in Er; discriminate Er.
      - destruct ns; simpl in Er; [injection Er as -> -> _|injection Er as -> -> _]; apply (Hd n); reflexivity. }
    rewrite Hj. reflexivity.
Qed.
Theorem C69_here cwd p : is_abs cwd = true -> is_abs p = true -> place_of p = place_of cwd -> relative_path (Some cwd) p = lit ".".
Proof. intros Hc Hp E. unfold relative_path, rel. rewrite (clean_place cwd Hc), (clean_place p Hp), E. rewrite decide_True by reflexivity. reflexivity. Qed.
(** A file elsewhere keeps its absolute path. *)
Theorem C69_elsewhere cwd p : is_abs cwd = true -> (forall ns, place_from cwd p <> ns ++ place_of cwd) -> relative_path (Some cwd) p = p.
Proof.
  intros Hc Hn. unfold relative_path. destruct (rel cwd p) as [r|] eqn:E; [|reflexivity]. destruct (has_prefix (lit "..") r) eqn:Eh; [reflexivity|]. exfalso.
  destruct (rel_place cwd p r Hc E) as (Hp & _ & _). unfold place_from in Hn. rewrite Hp in Hn. unfold rel in E. destruct (decide _) as [Es|].
  - rewrite (clean_place cwd Hc), (clean_place p Hp) in Es. apply spelled_inj in Es; [|apply place_proper|apply place_proper]. apply (Hn []). rewrite Es. reflexivity.
  - destruct (negb _); [discriminate E|]. rewrite (clean_place cwd Hc), (clean_place p Hp), !elements_spelled in E by apply place_proper. destruct (apart_from _ _) as [up down] eqn:Ea. injection E as <-.
    destruct (apart_from_spec _ _ _ _ Ea) as (c & Eb & Et & _). destruct up as [|u up].
    + rewrite app_nil_r in Eb. apply (Hn (rev down)). rewrite <- (rev_involutive (place_of cwd)), <- rev_app_distr, Eb, <- Et. symmetry. apply rev_involutive.
    + cbn [map app] in Eh. rewrite has_prefix_false in Eh. assert (G : forall l : list str, exists r, join_with [slash] (lit ".." :: l) = lit ".." ++ r) by (intros l; destruct l as [|x xs]; [exists []; reflexivity|exists ([slash] ++ join_with [slash] (x :: xs)); reflexivity]).
      destruct (G (map (fun _ => lit "..") up ++ down)) as [r Er]. exact (Eh r Er).
Qed.
Theorem C69_dots_refuted : exists cwd p n, is_abs cwd = true /\ place_of p = n :: place_of cwd /\ relative_path (Some cwd) p = p.
Proof. exists (lit "/w"), (lit "/w/..bab.yml"), (lit "..bab.yml"). vm_compute. auto. Qed.

(** From a printed place with a line the line and the file can be read back. *)
Lemma itoa_no_colon n : ":"%char ∉ itoa n.
Proof.
  induction n as [n IH] using lt_wf_ind. rewrite itoa_step. destruct (Nat.ltb_spec n 10) as [Hn|Hn].
  - intros H. apply elem_of_list_singleton in H. do 10 (destruct n as [|n]; [discriminate H|]). lia.
  - intros H. apply elem_of_app in H as [H|H]; [apply (IH (n / 10)) in H; [exact H|apply Nat.div_lt; lia]|]. apply elem_of_list_singleton in H. assert (Hm : n mod 10 < 10) by (apply Nat.mod_upper_bound; lia). revert H Hm. generalize (n mod 10). intros m H Hm. do 10 (destruct m as [|m]; [discriminate H|]). lia.
Qed.
Lemma last_colon (a b : str) x y : ":"%char ∉ x -> ":"%char ∉ y -> a ++ ":"%char :: x = b ++ ":"%char :: y -> a = b /\ x = y.
Proof.
  intros Hx Hy E. apply (f_equal (@rev ascii)) in E. rewrite !rev_app_distr in E. simpl in E. rewrite <- !app_assoc in E. simpl in E.
  assert (G : forall (u v : str) r s, ":"%char ∉ u -> ":"%char ∉ v -> u ++ ":"%char :: r = v ++ ":"%char :: s -> u = v /\ r = s).
  { clear. induction u as [|c u IH]; intros v r s Hu Hv E.
    - destruct v as [|d v]; [injection E as ->; auto|]. simpl in E. injection E as <- _. exfalso. apply Hv. left.
    - destruct v as [|d v]; [simpl in E; injection E as -> _; exfalso; apply Hu; left|]. simpl in E. injection E as -> E. apply IH in E as [-> ->]; [auto|intros H; apply Hu; right; exact H|intros H; apply Hv; right; exact H]. }
  apply G in E as [E1 E2]; [|intros H; apply Hx; apply elem_of_list_In; apply elem_of_list_In, in_rev in H; exact H|intros H; apply Hy; apply elem_of_list_In; apply elem_of_list_In, in_rev in H; exact H].
  split; [rewrite <- (rev_involutive a), E2; apply rev_involutive|rewrite <- (rev_involutive x), E1; apply rev_involutive].
Qed.
Theorem C69_read_back cwd p p' l l' c c' : is_abs cwd = true -> 0 < l -> 0 < l' -> (0 < c <-> 0 < c') ->
  format_location (Some cwd) p l c = format_location (Some cwd) p' l' c' -> l = l' /\ (0 < c -> c = c') /\ place_from cwd p = place_from cwd p'.
Proof.
  intros Hc Hl Hl' Hcc E. rewrite <- (C69_same_file cwd p Hc), <- (C69_same_file cwd p' Hc). unfold format_location in E. destruct (Nat.ltb_spec 0 l); [|lia]. destruct (Nat.ltb_spec 0 l'); [|lia].
  destruct (Nat.ltb_spec 0 c), (Nat.ltb_spec 0 c'); try lia.
  - assert (A : forall q m k, q ++ lit ":" ++ itoa m ++ lit ":" ++ itoa k = (q ++ ":"%char :: itoa m) ++ ":"%char :: itoa k) by (intros q m k; rewrite <- app_assoc; reflexivity). rewrite !A in E. apply last_colon in E as [E Ec]; [|apply itoa_no_colon|apply itoa_no_colon]. apply last_colon in E as [E El]; [|apply itoa_no_colon|apply itoa_no_colon].
    apply itoa_inj in Ec, El. rewrite E. auto.
  - change (lit ":" ++ ?z) with (":"%char :: z) in E. apply last_colon in E as [E El]; [|apply itoa_no_colon|apply itoa_no_colon]. apply itoa_inj in El. rewrite E. split; [exact El|]. split; [lia|reflexivity].
Qed.
(** Not when one has a column and the other has not. *)
Theorem C69_read_back_refuted : exists cwd p p' l c l', 0 < l /\ 0 < c /\ 0 < l' /\ format_location (Some cwd) p l c = format_location (Some cwd) p' l' 0 /\ l <> l' /\ place_from cwd p <> place_from cwd p'.
Proof. exists (lit "/w"), (lit "/w/a"), (lit "/w/a:3"), 3, 5, 5. vm_compute. repeat split; try lia; discriminate. Qed.

Example C69_met : is_abs (lit "/home/me/") = true /\ relative_path (Some (lit "/home/me/")) (lit "/home//me/./p/../q/Babfile") = lit "q/Babfile" /\ relative_path (Some (lit "/home/me/")) (lit "/home/you/Babfile") = lit "/home/you/Babfile" /\
  relative_path (Some (lit "/")) (lit "/Babfile") = lit "Babfile" /\ format_location (Some (lit "/home/me")) (lit "/home/me/a/b.yml") 12 0 = lit "a/b.yml:12" /\ place_of (lit "/home//me/./p/../q/Babfile") = rev (map lit ["q"; "Babfile"]%string) ++ place_of (lit "/home/me/").
Proof. vm_compute. auto 10. Qed.

(** ** C71 *)

(** The first place where "line " is followed by a digit, and the digits there. *)
Definition digit_char (c : ascii) : Prop := 48 <= code c <= 57.
Definition line_at (s : str) (i : nat) : Prop := exists c r, drop i s = lit "line " ++ c :: r /\ digit_char c.
Definition names_line (s : str) (i : nat) (ds : str) : Prop :=
  (exists rest, drop i s = lit "line " ++ ds ++ rest /\ ds <> [] /\ Forall digit_char ds /\ forall c r, rest = c :: r -> ~ digit_char c) /\
  forall j, j < i -> ~ line_at s j.
Lemma is_digit_spec c : is_digit c = true <-> digit_char c.
Proof. unfold is_digit, digit_char. destruct (Doc_Model.digit c) as [d|] eqn:E; [apply digit_spec in E as [E _]; split; auto|]. split; [discriminate|]. intros H. pose proof (proj2 (digit_spec c _) (conj H eq_refl)). congruence. Qed.
Lemma take_digits_spec s ds rest : take_digits s = (ds, rest) -> s = ds ++ rest /\ Forall digit_char ds /\ forall c r, rest = c :: r -> ~ digit_char c.
Proof.
  revert ds rest. induction s as [|c s IH]; intros ds rest H; cbn [take_digits] in H.
  - injection H as <- <-. repeat split; [constructor|discriminate].
  - destruct (is_digit c) eqn:E.
    + destruct (take_digits s) as [ds' rest'] eqn:Et. injection H as <- <-. destruct (IH _ _ eq_refl) as (-> & H1 & H2). split; [reflexivity|]. split; [constructor; [apply is_digit_spec; exact E|exact H1]|exact H2].
    + injection H as <- <-. split; [reflexivity|]. split; [constructor|]. intros c' r [= <- _] Hd. apply is_digit_spec in Hd. congruence.
Qed.
Lemma line_here_none s : line_here s = None <-> ~ line_at s 0.
Proof.
  unfold line_here, line_at. cbn [drop]. destruct (strip_prefix (lit "line ") s) as [r|] eqn:E.
  - apply strip_prefix_Some in E. subst s. destruct (take_digits r) as [ds rest] eqn:Et. destruct (take_digits_spec _ _ _ Et) as (-> & H1 & H2). destruct ds as [|d ds].
    + split; [intros _|reflexivity]. intros (c & r' & Er & Hc). apply app_inv_head in Er. simpl in Er. exact (H2 _ _ Er Hc).
    + apply Forall_cons in H1 as [Hd _]. split; [destruct rest as [|c rest]; [discriminate|]; intros H; exfalso; revert H; destruct c as [[] [] [] [] [] [] [] []]; discriminate|]. intros H. exfalso. apply H. exists d, (ds ++ rest). auto.
  - split; [intros _|reflexivity]. intros (c & r' & Er & _). rewrite strip_prefix_None in E. exact (E _ Er).
Qed.
Lemma line_here_some s ds rest : line_here s = Some (ds, rest) -> exists rest', s = lit "line " ++ ds ++ rest' /\ ds <> [] /\ Forall digit_char ds /\ (forall c r, rest' = c :: r -> ~ digit_char c) /\ rest = trim_prefix (lit ":") rest'.
Proof.
  unfold line_here. destruct (strip_prefix (lit "line ") s) as [r|] eqn:E; [|discriminate]. apply strip_prefix_Some in E. subst s. destruct (take_digits r) as [ds' rest'] eqn:Et. destruct (take_digits_spec _ _ _ Et) as (-> & H1 & H2). destruct ds' as [|d ds']; [discriminate|].
  intros H. exists rest'. assert (Hx : (ds, rest) = (d :: ds', trim_prefix (lit ":") rest')).
  { unfold trim_prefix. destruct rest' as [|c rest']; [injection H as <- <-; reflexivity|]. destruct (decide (c = ":"%char)) as [->|Hne]; [simpl in *; injection H as <- <-; reflexivity|].
    assert (Hs : strip_prefix (lit ":") (c :: rest') = None) by (apply strip_prefix_None; intros r' Er; injection Er as -> _; congruence). rewrite Hs. revert H Hne. clear. destruct c as [[] [] [] [] [] [] [] []]; intros H Hne; (injection H as <- <-; reflexivity) || (exfalso; apply Hne; reflexivity). }
  injection Hx as -> ->. repeat split; try assumption. discriminate.
Qed.
Lemma first_line_spec s ds : first_line s = Some ds <-> exists i, names_line s i ds.
Proof.
  revert ds. induction s as [|c s IH]; intros ds.
  - split; [discriminate|]. intros (i & (rest & E & _) & _). rewrite drop_nil in E. discriminate E.
  - cbn [first_line]. destruct (line_here (c :: s)) as [[ds' rest]|] eqn:E.
    + destruct (line_here_some _ _ _ E) as (rest' & Es & Hne & Hd & Hr & _). split.
      * intros [= <-]. exists 0. split; [exists rest'; auto|]. intros j Hj. lia.
      * intros (i & (rest2 & E2 & Hne2 & Hd2 & Hr2) & Hfirst). destruct i as [|i].
        -- cbn [drop] in E2. rewrite Es in E2. apply app_inv_head in E2. f_equal.
           clear - E2 Hd Hd2 Hr Hr2. revert ds E2 Hd2. induction Hd as [|x ds' Hx Hd IH]; intros ds E2 Hd2.
           ++ destruct ds as [|y ds]; [reflexivity|]. apply Forall_cons in Hd2 as [Hy _]. exfalso. exact (Hr _ _ E2 Hy).
           ++ destruct ds as [|y ds]; [exfalso; symmetry in E2; exact (Hr2 _ _ E2 Hx)|]. apply Forall_cons in Hd2 as [_ Hd2]. injection E2 as -> E2. f_equal. apply IH; assumption.
        -- exfalso. apply (Hfirst 0 ltac:(lia)). assert (Hl : line_here (c :: s) <> None) by (rewrite E; discriminate). destruct ds' as [|x ds']; [contradiction|]. apply Forall_cons in Hd as [Hx _]. exists x, (ds' ++ rest'). split; [exact Es|exact Hx].
    + apply line_here_none in E. rewrite IH. split.
      * intros (i & (rest & E2 & H) & Hfirst). exists (S i). split; [exists rest; auto|]. intros [|j] Hj; [exact E|]. apply Hfirst. lia.
      * intros (i & (rest & E2 & Hne & Hd & Hr) & Hfirst). destruct i as [|i].
        -- exfalso. apply E. destruct ds as [|x ds]; [contradiction|]. apply Forall_cons in Hd as [Hx _]. exists x, (ds ++ rest). split; [exact E2|exact Hx].
        -- exists i. split; [exists rest; auto|]. intros j Hj. apply (Hfirst (S j)). lia.
Qed.

(** The line of a YAML error is the number that follows the first "line " of the
    library's text; without such a number there is none. *)
Theorem C71_line msg : yaml_location msg = 0%Z \/ exists i ds z, names_line msg i ds /\ decimal ds z /\ yaml_location msg = z.
Proof.
  unfold yaml_location. destruct (first_line msg) as [ds|] eqn:E; [|left; reflexivity]. destruct (atoi ds) as [z|] eqn:Ea; [|left; reflexivity]. right. pose proof (proj1 (first_line_spec _ _) E) as [i Hi]. exists i, ds, z. split; [exact Hi|]. split; [|reflexivity].
  apply atoi_spec in Ea. destruct Hi as [(rest & _ & Hne & Hd & _) _]. inversion Ea; subst; [assumption|exfalso; apply Forall_cons in Hd as [Hd _]; revert Hd; unfold digit_char; vm_compute; lia|exfalso; apply Forall_cons in Hd as [Hd _]; revert Hd; unfold digit_char; vm_compute; lia].
Qed.
Theorem C71_line_found msg i ds z : names_line msg i ds -> decimal ds z -> (z < 2 ^ 63)%Z -> yaml_location msg = z.
Proof.
  intros Hi Hz Hr. unfold yaml_location. rewrite (proj2 (first_line_spec _ _) (ex_intro _ i Hi)). rewrite (proj2 (atoi_spec _ _) (int_plain _ _ Hz Hr)). reflexivity.
Qed.
(** The library's two forms, with no other line number inside: the line is taken out
    of the text and kept. *)
Definition no_line (s : str) : Prop := forall i, ~ line_at s i.
Lemma remove_none s f : no_line s -> remove_lines f s = s.
Proof.
  revert s. induction f as [|f IH]; intros s H; [reflexivity|]. cbn [remove_lines]. rewrite (proj2 (line_here_none s) (H 0)). destruct s as [|c s]; [reflexivity|]. f_equal. apply IH. intros i Hi. apply (H (S i)). exact Hi.
Qed.
Theorem C71_forms pre ds z msg : pre = lit "yaml: " \/ pre = lit "yaml: unmarshal errors:" ++ [nl] ++ lit "  " -> decimal ds z -> (z < 2 ^ 63)%Z -> no_line msg ->
  let s := pre ++ lit "line " ++ ds ++ lit ": " ++ msg in yaml_location s = z /\ clean_yaml s = trim_space (lit " " ++ msg).
Proof.
  intros Hpre Hz Hr Hmsg s.
  assert (Hds : Forall digit_char ds). { clear - Hz. induction Hz as [c Hc|s z c H IH Hc]; [constructor; [exact Hc|constructor]|]. apply Forall_app. split; [exact IH|constructor; [exact Hc|constructor]]. }
  assert (Hne : ds <> []) by (intros ->; apply decimal_head in Hz as (? & ? & ? & _); discriminate).
  assert (Hcolon : forall c r, lit ": " ++ msg = c :: r -> ~ digit_char c) by (intros c r [= <- _]; unfold digit_char; vm_compute; lia).
  split.
  - destruct ds as [|d ds]; [contradiction|]. apply (C71_line_found s (length pre) (d :: ds) z); [|exact Hz|exact Hr]. split.
    + exists (lit ": " ++ msg). split; [subst s; rewrite drop_app; reflexivity|auto].
    + intros j Hj (c & r & E & Hc). subst s. apply Forall_cons in Hds as [Hd _].
      destruct Hpre as [-> | ->]; [change (length (lit "yaml: ")) with 6 in Hj|change (length (lit "yaml: unmarshal errors:" ++ [nl] ++ lit "  ")) with 26 in Hj];
        (repeat (destruct j as [|j]; [discriminate E|])); exfalso; lia.
  - assert (E : clean_yaml s = trim_space (remove_lines (length (lit "line " ++ ds ++ lit ": " ++ msg)) (lit "line " ++ ds ++ lit ": " ++ msg))) by (subst s; destruct Hpre as [-> | ->]; reflexivity). rewrite E. f_equal.
    set (m := lit "line " ++ ds ++ lit ": " ++ msg). assert (Hl : line_here m = Some (ds, lit " " ++ msg)).
    { subst m. unfold line_here. change (lit "line " ++ ?z) with (lit "line " ++ z). assert (Es : strip_prefix (lit "line ") (lit "line " ++ ds ++ lit ": " ++ msg) = Some (ds ++ lit ": " ++ msg)) by (apply strip_prefix_Some; reflexivity). rewrite Es.
      assert (Et : take_digits (ds ++ lit ": " ++ msg) = (ds, lit ": " ++ msg)). { clear - Hds. induction Hds as [|x l Hx H IH]; [reflexivity|]. cbn [app take_digits]. rewrite (proj2 (is_digit_spec x) Hx), IH. reflexivity. }
      rewrite Et. destruct ds; [contradiction|reflexivity]. }
    destruct (length m) eqn:El; [destruct m; [discriminate Hl|discriminate El]|]. cbn [remove_lines]. rewrite Hl. apply remove_none.
    intros i (c & r & Ei & Hc). destruct i as [|i]; [discriminate Ei|]. apply (Hmsg i). exists c, r. split; [exact Ei|exact Hc].
Qed.
(** Words of the document that look like a line number are dropped from the text. *)
Theorem C71_text_refuted : exists msg, clean_yaml (lit "yaml: line 3: found " ++ msg) <> lit "found " ++ msg /\ trim_space (lit "found " ++ msg) = lit "found " ++ msg.
Proof. exists (lit "line 9 twice"). split; [vm_compute; discriminate|vm_compute; reflexivity]. Qed.
Example C71_met : yaml_location (lit "yaml: line 12: did not find expected key") = 12%Z /\ clean_yaml (lit "yaml: line 12: did not find expected key") = lit "did not find expected key" /\
  yaml_location (lit "yaml: unmarshal errors:" ++ [nl] ++ lit "  line 4: cannot unmarshal !!str into int") = 4%Z /\ decimal (lit "12") 12 /\ yaml_location (lit "yaml: control characters are not allowed") = 0%Z.
Proof. repeat split; try (vm_compute; reflexivity). apply decimal_digits. split; [discriminate|reflexivity]. Qed.

Print Assumptions C69_same_file.
Print Assumptions C69_short.
Print Assumptions C69_here.
Print Assumptions C69_elsewhere.
Print Assumptions C69_dots_refuted.
Print Assumptions C69_read_back.
Print Assumptions C69_read_back_refuted.
Print Assumptions C71_line.
Print Assumptions C71_line_found.
Print Assumptions C71_forms.
Print Assumptions C71_text_refuted.
